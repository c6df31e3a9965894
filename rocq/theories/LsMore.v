(** Success and safety of refinements, several objects, repeated failure. *)
From Coq Require Import List Arith Reals Bool Lia Lra FunctionalExtensionality Classical_Prop.
From Verif Require Import Base RSum GaussModel GaussSpec GaussProof LsModel LsSpec LsProof CtlProof LsStep LsRun LsRaw.
Import ListNotations.
Local Open Scope R_scope.

(** * success *)


Lemma dependent_singular o ds : weights_ok ds -> (damped_singular (f_ia o) (f_ma o) ds 0 <-> dependent o ds).
Proof.
  intros W. rewrite undamped_singular by auto. unfold dependent, free, along.
  split; intros (x & (l & H) & A); exists x; (split; [exists l; tauto|auto]).
Qed.

Lemma regular_session o o' : same_session o o' -> regular o -> regular o'.
Proof.
  intros (S1 & S2 & S3 & S4) RG p. rewrite S3. destruct (RG p) as (ds & A & B & C). exists ds. split; auto. split; auto.
  intros l F. apply C. unfold free in *. rewrite <- S1, <- S2. auto.
Qed.

Lemma not_singular_of o p ds lam : regular o -> f_theory o p = Ok ds -> 0 < lam -> ~ damped_singular (f_ia o) (f_ma o) ds lam.
Proof.
  intros RG TH LP. destruct (RG p) as (ds' & A & B & C). assert (ds' = ds) by congruence. subst.
  rewrite damped_singular_influence by auto. intros (l & Hl & El & N). apply (C l); auto. split; auto.
Qed.

Lemma iterate_ok toler o0 ds0 x : under_way o0 ds0 x -> regular o0 -> exists b, snd (ls_iterate toler x) = Ok b.
Proof.
  intros [ds s I L SS FK BT] RG. destruct x as [st o]. cbn [fst snd] in *. unfold ls_iterate.
  set (o1 := set_ochisq o (f_chisq o)).
  assert (I' : lsinv st o1 ds s) by (apply (inv_session st o); auto; repeat split).
  assert (SS1 : same_session o0 o1) by exact (same_trans _ _ _ SS ltac:(repeat split)).
  assert (RG1 : regular o1) by (eapply regular_session; eauto).
  rewrite (mrqmin_nonneg st s o1) by (destruct I; auto; cbn; lra).
  pose proof (mrq_main_step st o1 ds s I' L) as M. destruct (mrq_main s o1) as [[st' o'] [u|e| |]]; cbn [snd omap obind].
  - eexists; reflexivity.
  - destruct M as (_ & _ & _ & [(-> & DS & _)|(t & TH & _)]).
    + exfalso. eapply (not_singular_of o1); eauto. destruct I'; eauto.
    + destruct (RG1 t) as (? & ? & _). congruence.
  - destruct M as (_ & _ & t & TH). destruct (RG1 t) as (? & ? & _). congruence.
  - destruct M as (_ & _ & t & TH). destruct (RG1 t) as (? & ? & _). congruence.
Qed.

Lemma first_ok toler st o : f_alambda o < 0 -> f_dim o = f_ma o -> regular o -> exists b, snd (ls_iterate toler (st, o)) = Ok b.
Proof.
  intros L D RG. unfold ls_iterate. set (o1 := set_ochisq o (f_chisq o)).
  assert (RG1 : regular o1) by (apply (regular_session o); auto; repeat split).
  unfold mrqmin. pose proof (mrq_init_fresh st o1 L D) as MI.
  destruct (mrq_init st o1) as [[st1 o2] [u|e| |]].
  2-4: destruct MI as (MS & P & TH); destruct (RG1 (f_p o1)) as (? & ? & _); congruence.
  destruct MI as (ds0 & s & TH & I & MS & P & OC & LM & _).
  assert (RG2 : regular o2) by (apply (regular_session o1); auto).
  assert (IS : st1 = Some s) by (destruct I; auto). subst st1.
  assert (LP : 0 < f_alambda o2) by (rewrite LM; lra).
  pose proof (mrq_main_step _ o2 ds0 s I LP) as M. destruct (mrq_main s o2) as [[st' o'] [v|e| |]]; cbn [snd omap obind].
  - eexists; reflexivity.
  - destruct M as (_ & _ & _ & [(-> & DS & _)|(t & TH2 & _)]).
    + exfalso. eapply (not_singular_of o2); eauto. destruct I; eauto.
    + destruct (RG2 t) as (? & ? & _). congruence.
  - destruct M as (_ & _ & t & TH2). destruct (RG2 t) as (? & ? & _). congruence.
  - destruct M as (_ & _ & t & TH2). destruct (RG2 t) as (? & ? & _). congruence.
Qed.

(** the state in which the final step fails *)
Definition stuck (running : bool) (c : ctl) (x : lst) : Prop :=
  running = true /\ c_iter c <> 0%nat /\ need_more c = false /\
  exists s, fst x = Some s /\ (f_ma (snd x) <= s_ma s)%nat /\ (s_mfit s <= f_dim (snd x))%nat /\ (f_ma (snd x) <= f_dim (snd x))%nat /\
  singular (s_mfit s) (augment (s_mfit s) (f_alpha (snd x)) (f_covar (snd x)) 0).

Lemma singular_ext n A B : (forall r c, (1 <= r <= n)%nat -> (1 <= c <= n)%nat -> A r c = B r c) -> singular n A -> singular n B.
Proof.
  intros E (x & NZ & Z). exists x. split; auto. intros r Hr. rewrite <- (Z r Hr). apply S1_ext. intros c Hc. rewrite E; auto.
Qed.

Lemma finish_ok o0 ds0 x : under_way o0 ds0 x -> regular o0 ->
  let (x', r) := ls_finish x in
  exists ds, f_theory o0 (f_p (snd x')) = Ok ds /\ f_p (snd x') = f_p (snd x) /\
  ((r = Ok tt /\ ~ dependent o0 ds) \/
   (r = Err ErrCalculation /\ dependent o0 ds /\
    exists s, fst x' = Some s /\ (f_ma (snd x') <= s_ma s)%nat /\ (s_mfit s <= f_dim (snd x'))%nat /\ (f_ma (snd x') <= f_dim (snd x'))%nat /\
      singular (s_mfit s) (augment (s_mfit s) (f_alpha (snd x')) (f_covar (snd x')) 0))).
Proof.
  intros [ds s I L SS FK BT] RG. destruct x as [st o]. cbn [fst snd] in *. unfold ls_finish.
  set (o1 := set_lambda o 0).
  assert (I' : lsinv st o1 ds s) by (apply (inv_session st o); auto; repeat split).
  assert (SS1 : same_session o0 o1) by exact (same_trans _ _ _ SS ltac:(repeat split)).
  rewrite (mrqmin_nonneg st s o1) by (destruct I; auto; cbn; lra).
  destruct SS1 as (S1 & S2 & S3 & S4).
  assert (TH : f_theory o0 (f_p o) = Ok ds) by (rewrite <- S3; destruct I'; auto).
  assert (W : weights_ok ds). { destruct (RG (f_p o)) as (ds' & A & B & _). assert (ds' = ds) by congruence. subst; auto. }
  pose proof (inv_singular _ _ _ _ I') as SI. destruct (inv_bounds _ _ _ _ I') as (B1 & B2 & B3 & B4).
  change (f_alambda o1) with 0 in SI. rewrite S1, S2 in SI. rewrite dependent_singular in SI by auto.
  destruct (classic (dependent o0 ds)) as [DP|ND].
  - rewrite (mrq_main_singular s o1) by tauto. cbn [obind snd fst]. exists ds. split; auto. split; auto. right. split; auto. split; auto.
    exists s. split; auto. repeat (split; auto).
    apply (singular_ext (s_mfit s) (augment (s_mfit s) (f_alpha o1) (f_covar o1) 0)).
    + intros r c Hr Hc. rewrite !augment_val, (proj2 (inr_spec _ _) Hr), (proj2 (inr_spec _ _) Hc). reflexivity.
    + tauto.
  - pose proof (mrq_main_final st o1 ds s I' eq_refl) as M. destruct (mrq_main s o1) as [[st' o'] [u|e| |]]; try contradiction.
    + destruct M as ((T1 & T2 & T3 & T4) & P & _). cbn [obind]. rewrite T3, P. change (f_theory o1 (f_p o1)) with (f_theory o (f_p o)).
      change (f_theory o) with (f_theory o1). rewrite S3, TH. cbn [omap obind snd fst]. exists ds. rewrite P. auto.
    + destruct M as (_ & _ & _ & _ & _ & _ & _ & _ & DS). exfalso. apply ND. apply dependent_singular; auto.
      rewrite S1, S2 in DS. auto.
Qed.

Definition verdict (o : fobj) (running : bool) (c : ctl) (x : lst) (r : outcome unit) : Prop :=
  exists ds, f_theory o (f_p (snd x)) = Ok ds /\
    ((r = Ok tt /\ ~ dependent o ds) \/ (r = Err ErrCalculation /\ dependent o ds /\ stuck running c x)).

Lemma need_more_lt c : need_more c = true -> (c_iter c < 100)%nat.
Proof. unfold need_more. intros M. apply orb_true_iff in M. rewrite andb_true_iff, !Nat.ltb_lt in M. lia. Qed.

Lemma refine_next_ok toler o0 ds0 : regular o0 -> forall fuel c x, c_iter c <> 0%nat -> (101 <= c_iter c + fuel)%nat -> (c_iter c <= 100)%nat ->
  under_way o0 ds0 x ->
  let '(running', c', x', r) := ls_refine toler fuel true c x in verdict o0 running' c' x' r.
Proof.
  intros RG. induction fuel as [|n IH]; intros c x NZ FU LE U. lia.
  unfold ls_refine. cbn [refine]. unfold refine_step. destruct (Nat.eqb_spec (c_iter c) 0); [congruence|]. cbn [negb andb]. cbv iota.
  destruct (need_more c) eqn:NM.
  - pose proof (ls_iterate_next toler o0 ds0 x U) as IT. destruct (iterate_ok toler o0 ds0 x U RG) as [b EB].
    destruct (ls_iterate toler x) as [x1 r1]. cbn [snd] in EB. subst r1. destruct IT as (_ & _ & G). destruct (G b eq_refl) as (U1 & _).
    apply need_more_lt in NM. apply IH; auto; cbn; lia.
  - pose proof (finish_ok o0 ds0 x U RG) as F. destruct (ls_finish x) as [x1 r1].
    destruct F as (ds & TH & P & [(-> & ND)|(-> & DP & ST)]); exists ds; (split; [auto|]).
    + left; auto.
    + right. split; auto. split; auto. split; auto.
Qed.

Lemma refine_verdict toler fuel running c st o : fresh running c -> f_setup o = Ok tt -> regular o -> (101 <= fuel)%nat ->
  let '(running', c', x', r) := ls_refine toler fuel running c (st, o) in verdict o running' c' x' r.
Proof.
  intros F SU RG FU. destruct fuel as [|n]; [lia|]. unfold ls_refine. cbn [refine]. unfold refine_step. rewrite (fresh_false _ _ F).
  pose proof (ls_setup_spec st o) as SS. destruct (ls_setup (st, o)) as [[st1 o1] r1].
  cbn [fst snd] in SS. destruct SS as (-> & SE & P & LM & D & RS). rewrite SU in RS.
  assert (r1 = Ok tt) by auto. subst r1. change (need_more (mkC 0 0)) with true. cbv iota.
  assert (RG1 : regular o1) by (eapply regular_session; eauto).
  pose proof (ls_iterate_first toler st o1 ltac:(rewrite LM; lra) (D eq_refl)) as IT.
  destruct (first_ok toler st o1 ltac:(rewrite LM; lra) (D eq_refl) RG1) as [b EB].
  destruct (ls_iterate toler (st, o1)) as [x2 r2]. cbn [snd] in EB. subst r2. destruct IT as (_ & _ & G).
  destruct (G b eq_refl) as (ds0 & _ & U & _).
  pose proof (refine_next_ok toler o1 ds0 RG1 n (bump (mkC 0 0) b) x2 ltac:(cbn; lia) ltac:(cbn; lia) ltac:(cbn; lia) U) as HV.
  unfold ls_refine in HV. destruct (refine ls_setup (ls_iterate toler) ls_finish n true (bump (mkC 0 0) b) x2) as [[[ra ca] xa] qa].
  destruct HV as (ds & TH & HV). destruct SE as (S1 & S2 & S3 & S4). exists ds. rewrite <- S3. split; auto.
  assert (DE : dependent o ds <-> dependent o1 ds). { unfold dependent, free. rewrite S1, S2. tauto. }
  rewrite DE. auto.
Qed.


Lemma iterate_safe toler o0 ds0 x : under_way o0 ds0 x -> never_ub o0 -> snd (ls_iterate toler x) <> UB.
Proof.
  intros [ds s I L SS FK BT] [_ RG]. destruct x as [st o]. cbn [fst snd] in *. unfold ls_iterate.
  set (o1 := set_ochisq o (f_chisq o)).
  assert (I' : lsinv st o1 ds s) by (apply (inv_session st o); auto; repeat split).
  rewrite (mrqmin_nonneg st s o1) by (destruct I; auto; cbn; lra).
  pose proof (mrq_main_step st o1 ds s I' L) as M. destruct (mrq_main s o1) as [[st' o'] [u|e| |]]; cbn [snd omap obind]; try discriminate.
  destruct M as (_ & _ & t & TH). destruct SS as (_ & _ & S3 & _). change (f_theory o1) with (f_theory o) in TH. rewrite S3 in TH.
  destruct (RG t TH).
Qed.

Lemma first_safe toler st o : f_alambda o < 0 -> f_dim o = f_ma o -> never_ub o -> snd (ls_iterate toler (st, o)) <> UB.
Proof.
  intros L D [_ RG]. unfold ls_iterate. set (o1 := set_ochisq o (f_chisq o)).
  unfold mrqmin. pose proof (mrq_init_fresh st o1 L D) as MI.
  destruct (mrq_init st o1) as [[st1 o2] [u|e| |]]; cbn [snd omap obind]; try discriminate.
  2: destruct MI as (MS & P & TH); destruct (RG _ TH).
  destruct MI as (ds0 & s & TH & I & MS & P & OC & LM & _).
  assert (IS : st1 = Some s) by (destruct I; auto). subst st1.
  assert (LP : 0 < f_alambda o2) by (rewrite LM; lra).
  pose proof (mrq_main_step _ o2 ds0 s I LP) as M. destruct (mrq_main s o2) as [[st' o'] [v|e| |]]; cbn [snd omap obind]; try discriminate.
  destruct M as (_ & _ & t & TH2). destruct MS as (_ & _ & S3 & _). rewrite S3 in TH2. destruct (RG t TH2).
Qed.

Lemma step_fresh_safe toler running c st o : fresh running c -> never_ub o -> snd (ls_step toler running c (st, o)) <> UB.
Proof.
  intros F NU. unfold ls_step, refine_step. rewrite (fresh_false _ _ F).
  pose proof (ls_setup_spec st o) as SS. destruct (ls_setup (st, o)) as [[st1 o1] r1].
  cbn [fst snd] in SS. destruct SS as (-> & SE & P & LM & D & RS).
  destruct r1 as [[]|e| |]; cbn [snd]; try discriminate.
  2:{ destruct NU as [N _]. congruence. }
  change (need_more (mkC 0 0)) with true. cbv iota.
  assert (NU1 : never_ub o1). { destruct SE as (S1 & S2 & S3 & S4), NU. split; rewrite ?S3, ?S4; auto. }
  pose proof (first_safe toler st o1 ltac:(rewrite LM; lra) (D eq_refl) NU1) as IT.
  destruct (ls_iterate toler (st, o1)) as [x2 [b|e| |]]; cbn [snd] in *; try discriminate. congruence.
Qed.

Lemma step_next_safe toler c o0 ds0 x : c_iter c <> 0%nat -> under_way o0 ds0 x -> never_ub o0 -> snd (ls_step toler true c x) <> UB.
Proof.
  intros NZ U NU. unfold ls_step, refine_step.
  destruct (Nat.eqb_spec (c_iter c) 0); [congruence|]. cbn [negb andb]. cbv iota.
  destruct (need_more c).
  - pose proof (iterate_safe toler o0 ds0 x U NU) as IT. destruct (ls_iterate toler x) as [x2 [b|e| |]]; cbn [snd] in *; try discriminate. congruence.
  - pose proof (ls_finish_spec o0 ds0 x U) as FI. destruct (ls_finish x) as [x2 [[]|e| |]]; cbn [snd]; try discriminate. tauto.
Qed.

Lemma refine_safe toler fuel running c st o : fresh running c -> never_ub o -> snd (ls_refine toler fuel running c (st, o)) <> UB.
Proof.
  intros F NU. destruct fuel as [|n]; [discriminate|]. unfold ls_refine. cbn [refine].
  pose proof (step_fresh toler running c st o F) as SF. pose proof (step_fresh_safe toler running c st o F NU) as SV. unfold ls_step in SF, SV.
  destruct (refine_step ls_setup (ls_iterate toler) ls_finish running c (st, o)) as [[[r1 c1] x1] [[|]|e| |]]; cbn [snd] in *; try discriminate; try congruence.
  destruct SF as (_ & _ & -> & _ & G). destruct (G eq_refl) as (B & _ & ds0 & _ & U & _).
  assert (NZ : c_iter c1 <> 0%nat) by lia. clear - NZ U NU.
  revert c1 x1 NZ U. induction n as [|n IH]; intros c x NZ U; [discriminate|].
  cbn [refine]. pose proof (step_next toler c o ds0 x NZ U) as SN. pose proof (step_next_safe toler c o ds0 x NZ U NU) as SV. unfold ls_step in SN, SV.
  destruct (refine_step ls_setup (ls_iterate toler) ls_finish true c x) as [[[r1 c1] x1] [[|]|e| |]]; cbn [snd] in *; try discriminate; try congruence.
  destruct SN as (_ & _ & G & _). destruct (G eq_refl) as (-> & B & C & _). apply IH; auto. lia.
Qed.


Lemma edit_view g o o' : same_view o o' -> same_view (edit g o) (edit g o').
Proof.
  intros ((S1 & S2 & S3 & S4) & P & C & CU). unfold edit.
  assert (E : sess_of o' = sess_of o) by (unfold sess_of; rewrite S1, S2, S3, S4, P; auto). rewrite E. repeat split; auto.
Qed.

Lemma view_start o o' : same_view o o' -> same_start o o'.
Proof. intros (A & B & C & D). repeat split; auto; apply A. Qed.

Lemma view_sym o o' : same_view o o' -> same_view o' o.
Proof. intros ((S1 & S2 & S3 & S4) & P & C & CU). repeat split; auto. Qed.

(** refinements of one object among those of others agree with the same calls made alone *)
Lemma isolated toler i : forall ops w v, (forall op, In op ops -> no_step op) -> w_run w = false -> w_run v = false ->
  same_view (snd (w_obj w i)) (snd (w_obj v i)) ->
  forall w', w_calls toler w ops = Some w' ->
  exists v', w_calls toler v (filter (fun op => (wop_obj op =? i)%nat) ops) = Some v' /\ same_view (snd (w_obj w' i)) (snd (w_obj v' i)) /\
    w_run w' = false.
Proof.
  induction ops as [|op ops IH]; intros w v NS R1 R2 V w' H.
  - cbn in *. inversion H; subst. exists v. auto.
  - cbn [w_calls] in H. assert (NS' : forall op, In op ops -> no_step op) by (intros; apply NS; right; auto).
    pose proof (NS op (or_introl eq_refl)) as N0.
    cbn [filter]. destruct op as [j g|j|j]; cbn [wop_obj] in *; [|contradiction|].
    + cbn [w_call] in H. destruct (w_obj w j) as [c o] eqn:EW. 
      destruct (Nat.eqb_spec j i) as [->|NE].
      * cbn [w_calls w_call]. destruct (w_obj v i) as [c2 o2] eqn:EV. rewrite EW in V. cbn [snd] in V.
        eapply IH; try exact H; auto. unfold w_put. cbn [w_obj]. rewrite Nat.eqb_refl. cbn [snd]. apply edit_view; auto.
      * eapply IH; try exact H; auto. unfold w_put. cbn [w_obj]. destruct (Nat.eqb_spec i j); [congruence|]. auto.
    + unfold w_call in H. destruct (w_obj w j) as [c o] eqn:EW. rewrite R1 in H.
      pose proof (refine_fresh toler 101 false c (w_st w) o (or_introl eq_refl)) as RF.
      destruct (Nat.eqb_spec j i) as [->|NE].
      * cbn [w_calls]. unfold w_call. destruct (w_obj v i) as [c2 o2] eqn:EV. rewrite EW in V. cbn [snd] in V. rewrite R2.
        pose proof (refine_independent toler 101 false c false c2 (w_st w) o (w_st v) o2 (or_introl eq_refl) (or_introl eq_refl) (view_start _ _ V) ltac:(lia)) as RI.
        pose proof (refine_fresh toler 101 false c2 (w_st v) o2 (or_introl eq_refl)) as RF2.
        destruct (ls_refine toler 101 false c (w_st w, o)) as [[[r1 c1] [st1 o1]] q1].
        destruct (ls_refine toler 101 false c2 (w_st v, o2)) as [[[r3 c3] [st3 o3]] q3].
        destruct RI as (-> & -> & -> & VV & _). destruct q3 as [[]|e| |]; try discriminate. cbn [snd] in *.
        destruct RF as (_ & _ & RF). destruct (RF eq_refl) as (ds & _ & _ & ->).
        eapply IH; try exact H; auto. unfold w_put. cbn [w_obj]. rewrite Nat.eqb_refl. cbn [snd]. auto.
      * destruct (ls_refine toler 101 false c (w_st w, o)) as [[[r1 c1] [st1 o1]] q1]. destruct q1 as [[]|e| |]; try discriminate.
        destruct RF as (_ & _ & RF). destruct (RF eq_refl) as (ds & _ & _ & ->).
        eapply IH; try exact H; auto. unfold w_put. cbn [w_obj]. destruct (Nat.eqb_spec i j); [congruence|]. auto.
Qed.

(** * the failing final step repeats *)
Lemma stuck_refine toler fuel running c x : stuck running c x -> (0 < fuel)%nat ->
  let '(running', c', x', r) := ls_refine toler fuel running c x in
  r = Err ErrCalculation /\ stuck running' c' x' /\ same_session (snd x) (snd x') /\ f_p (snd x') = f_p (snd x).
Proof.
  intros (-> & NZ & NM & s & SX & B1 & B2 & B3 & SI) FU. destruct fuel as [|n]; [lia|]. destruct x as [st o]. cbn [fst snd] in *. subst st.
  unfold ls_refine. cbn [refine]. unfold refine_step. destruct (Nat.eqb_spec (c_iter c) 0); [congruence|]. cbn [negb andb]. cbv iota.
  rewrite NM. unfold ls_finish. set (o1 := set_lambda o 0).
  rewrite (mrqmin_nonneg (Some s) s o1) by (auto; cbn; lra).
  rewrite (mrq_main_singular s o1) by auto. cbn [obind snd fst]. split; auto. split.
  - split; auto. split; auto. split; auto. exists s. repeat (split; auto).
    apply (singular_ext (s_mfit s) (augment (s_mfit s) (f_alpha o) (f_covar o) 0)); auto.
    intros r k Hr Hk. rewrite !augment_val, (proj2 (inr_spec _ _) Hr), (proj2 (inr_spec _ _) Hk). reflexivity.
  - repeat split.
Qed.



Lemma stuck_attempts toler : forall gs running c x, (forall g, In g gs -> keeps_number g) -> stuck running c x ->
  Forall (fun r => r = Err ErrCalculation) (attempts toler running c x gs).
Proof.
  induction gs as [|g gs IH]; intros running c x K ST; cbn [attempts]; [constructor|].
  assert (ST' : stuck running c (fst x, edit g (snd x))).
  { destruct ST as (A & B & C & s & D & E & F & G & H). split; auto. split; auto. split; auto. exists s. cbn [fst snd].
    split; auto. unfold edit. cbn [f_ma f_dim f_alpha f_covar]. rewrite (K g (or_introl eq_refl)). cbn. auto. }
  pose proof (stuck_refine toler 101 running c _ ST' ltac:(lia)) as SR.
  destruct (ls_refine toler 101 running c (fst x, edit g (snd x))) as [[[r1 c1] x1] q1].
  destruct SR as (-> & S1 & _). constructor; auto. apply IH; auto. intros; apply K; right; auto.
Qed.

(** * source of the recorded cumulative residuals *)
Lemma iterate_cum toler o0 ds0 x : under_way o0 ds0 x ->
  let (x', r) := ls_iterate toler x in
  forall b, r = Ok b -> exists ds lam t dst, f_theory o0 (f_p (snd x)) = Ok ds /\ 0 < lam /\ (forall l, ~ free o0 l -> t l = f_p (snd x) l) /\
    damped (f_ia o0) (f_ma o0) ds lam (fun l => t l - f_p (snd x) l) (gradient ds) /\
    f_theory o0 t = Ok dst /\ f_cum (snd x') = map cum_chisq dst /\
    ((f_p (snd x') = t /\ f_chisq (snd x') = chisq_of dst /\ f_chisq (snd x') < f_chisq (snd x)) \/
     (f_p (snd x') = f_p (snd x) /\ f_chisq (snd x') = f_chisq (snd x) /\ f_chisq (snd x) <= chisq_of dst)).
Proof.
  intros [ds s I L SS FK BT]. destruct x as [st o]. cbn [fst snd] in *. unfold ls_iterate.
  set (o1 := set_ochisq o (f_chisq o)).
  assert (I' : lsinv st o1 ds s) by (apply (inv_session st o); auto; repeat split).
  rewrite (mrqmin_nonneg st s o1) by (destruct I; auto; cbn; lra).
  pose proof (mrq_main_step st o1 ds s I' L) as M. destruct (mrq_main s o1) as [[st' o'] [u|e| |]]; cbn [snd fst omap obind]; try discriminate.
  intros b _. destruct M as (MS & OC & t & dst & TF & DA & TH & C). exists ds, (f_alambda o), t, dst.
  destruct SS as (S1 & S2 & S3 & _). split. rewrite <- S3. destruct I; auto. split; auto.
  split. { intros l NF. apply TF. unfold free in *. cbn. rewrite S1, S2. auto. }
  split. { rewrite <- S1, <- S2. exact DA. } change (f_theory o1) with (f_theory o) in TH. rewrite S3 in TH. split; auto.
  assert (CQ : f_chisq o = chisq_of ds) by (destruct I; auto).
  destruct C as [(CL & (P & LM & _ & C & CU))|(CL & (P & LM & _ & C & CU))]; split; auto.
  - left. rewrite C, CQ. auto.
  - right. rewrite C, CQ. cbn [f_chisq o1 set_ochisq]. unfold o1 in *. cbn [f_chisq set_ochisq f_p] in *. rewrite <- CQ. repeat split; auto; lra.
Qed.

Lemma step_cum toler running c st o n running1 c1 x1 running2 c2 x2 r : fresh running c ->
  ls_steps toler (S n) running c (st, o) = Some (running1, c1, x1) ->
  ls_step toler running1 c1 x1 = (running2, c2, x2, r) ->
  (r = Ok false -> exists ds lam t dst, f_theory o (f_p (snd x1)) = Ok ds /\ 0 < lam /\ (forall l, ~ free o l -> t l = f_p (snd x1) l) /\
    damped (f_ia o) (f_ma o) ds lam (fun l => t l - f_p (snd x1) l) (gradient ds) /\
    f_theory o t = Ok dst /\ f_cum (snd x2) = map cum_chisq dst /\
    ((f_p (snd x2) = t /\ f_chisq (snd x2) = chisq_of dst /\ f_chisq (snd x2) < f_chisq (snd x1)) \/
     (f_p (snd x2) = f_p (snd x1) /\ f_chisq (snd x2) = f_chisq (snd x1) /\ f_chisq (snd x1) <= chisq_of dst))) /\
  (r = Ok true -> f_cum (snd x2) = f_cum (snd x1)).
Proof.
  intros F H ST. destruct (steps_under_way toler running c st o F n _ _ _ H) as (-> & I1 & ds0 & TH & U & _).
  pose proof (step_next toler c1 o ds0 x1 ltac:(lia) U) as SN. rewrite ST in SN. destruct SN as (_ & _ & _ & G).
  split.
  - intros ->. revert ST. unfold ls_step, refine_step. destruct (Nat.eqb_spec (c_iter c1) 0); [lia|]. cbn [negb andb]. cbv iota.
    destruct (need_more c1).
    + pose proof (iterate_cum toler o ds0 x1 U) as IT. destruct (ls_iterate toler x1) as [x' [b|e| |]]; intros E; inversion E; subst.
      apply (IT b eq_refl).
    + destruct (ls_finish x1) as [x' [b|e| |]]; intros E; inversion E.
  - intros E. destruct (G E) as (_ & _ & _ & C & _). auto.
Qed.

(** * the gradient is that of chi-squared *)

Lemma lsum_deriv {A} (f : A -> R -> R) (f' : A -> R) L x :
  (forall a, In a L -> derivable_pt_lim (f a) x (f' a)) -> derivable_pt_lim (fun s => lsum (fun a => f a s) L) x (lsum f' L).
Proof.
  induction L as [|a L IH]; intros H; simpl.
  - apply derivable_pt_lim_const.
  - apply (derivable_pt_lim_plus (f a) (fun s => lsum (fun a => f a s) L)). apply H; left; auto. apply IH. intros; apply H; right; auto.
Qed.

Lemma chisq_derivative ia ma dir dss : smooth_along ia ma dir dss ->
  derivable_pt_lim (fun s => chisq_of (dss s)) 0 (- 2 * sum_free ia ma (fun l => gradient (dss 0) l * dir l)).
Proof.
  intros (mk & E & H).
  set (g := fun (d : R -> dsval) => lsum (fun i => d_w (d 0) i * (2 * (resid (d 0) i * - along ia ma (d 0) i dir))) (points (d 0))).
  assert (D : derivable_pt_lim (fun s => lsum (fun d => ds_chisq (d s)) mk) 0 (lsum g mk)).
  { apply lsum_deriv. intros d Id. destruct (H d Id) as [K DP]. unfold g.
    assert (EQ : (fun s => ds_chisq (d s)) = (fun s => lsum (fun i => d_w (d 0) i * ((d_obs (d 0) i - d_pdf (d s) i) * (d_obs (d 0) i - d_pdf (d s) i))) (points (d 0)))).
    { apply functional_extensionality. intros s. destruct (K s) as (K1 & K2 & K3 & K4). unfold ds_chisq, points, resid. rewrite K1, K2, K3, K4. auto. }
    rewrite EQ. apply lsum_deriv. intros i Ii.
    apply (derivable_pt_lim_scal (fun s => (d_obs (d 0) i - d_pdf (d s) i) * (d_obs (d 0) i - d_pdf (d s) i))).
    assert (D1 : derivable_pt_lim (fun s => d_obs (d 0) i - d_pdf (d s) i) 0 (0 - along ia ma (d 0) i dir)).
    { apply (derivable_pt_lim_minus (fun _ => d_obs (d 0) i) (fun s => d_pdf (d s) i)). apply derivable_pt_lim_const. apply DP; auto. }
    pose proof (derivable_pt_lim_mult _ _ _ _ _ D1 D1) as DM. cbv beta in DM.
    replace (2 * (resid (d 0) i * - along ia ma (d 0) i dir)) with
      ((0 - along ia ma (d 0) i dir) * (d_obs (d 0) i - d_pdf (d 0) i) + (d_obs (d 0) i - d_pdf (d 0) i) * (0 - along ia ma (d 0) i dir)) by (unfold resid; ring).
    exact DM. }
  assert (EF : (fun s => chisq_of (dss s)) = (fun s => lsum (fun d => ds_chisq (d s)) mk)).
  { apply functional_extensionality. intros s. rewrite E. unfold chisq_of. clear. induction mk; simpl; auto. rewrite IHmk. auto. }
  rewrite EF.
  replace (- 2 * sum_free ia ma (fun l => gradient (dss 0) l * dir l)) with (lsum g mk); auto.
  rewrite E. unfold gradient.
  rewrite (sum_free_ext ia ma _ (fun l => lsum (fun d => lsum (fun i => d_w d i * resid d i * (dpar d i l * dir l)) (points d)) (map (fun d => d 0) mk))).
  - rewrite sum_free_lsum. unfold g. clear. induction mk as [|d mk IH]; simpl. lra. rewrite Rmult_plus_distr_l, IH. f_equal.
    rewrite sum_free_lsum. rewrite <- lsum_scal. apply lsum_ext. intros i _. rewrite sum_free_scal. unfold along. lra.
  - intros l _ _. rewrite Rmult_comm, <- lsum_scal. apply lsum_ext. intros d _. rewrite <- lsum_scal. apply lsum_ext. intros; lra.
Qed.

(** * forms used by the property file *)
Lemma first_failure_fresh toler running c st o running' c' st' o' r : fresh running c ->
  ls_step toler running c (st, o) = (running', c', (st', o'), r) -> (forall b, r <> Ok b) -> fresh running' c'.
Proof.
  intros F. unfold ls_step, refine_step. rewrite (fresh_false _ _ F).
  destruct (ls_setup (st, o)) as [x1 [[]|e| |]]; try (intros E _; inversion E; subst; right; reflexivity).
  change (need_more (mkC 0 0)) with true. cbv iota.
  destruct (ls_iterate toler x1) as [x2 [b|e| |]]; try (intros E _; inversion E; subst; right; reflexivity).
  intros E N. inversion E; subst. destruct (N false eq_refl).
Qed.

Lemma lsum_map {A B} (f : B -> R) (g : A -> B) L : lsum f (map g L) = lsum (fun a => f (g a)) L.
Proof. induction L; simpl; auto. rewrite IHL. auto. Qed.

Lemma mrqcof_cum o a al be : match mrqcof o a al be with
  | (o', _, _, Ok c) => exists ds, f_theory o a = Ok ds /\ f_cum o' = map cum_chisq ds /\ c = lsum back0 (f_cum o')
  | _ => forall ds, f_theory o a <> Ok ds
  end.
Proof.
  pose proof (mrqcof_spec o a al be) as M. destruct (mrqcof o a al be) as [[[o' al'] be'] [c|e| |]].
  - destruct M as (ds & TH & -> & -> & _). exists ds. split; auto. split; auto. cbn [f_cum set_cum]. rewrite lsum_map.
    unfold chisq_of. apply lsum_ext. intros d _. rewrite cum_last. auto.
  - destruct M as [-> _]. discriminate.
  - destruct M as [-> _]. discriminate.
  - destruct M as [-> _]. discriminate.
Qed.

Lemma crw_spec total d : (forall i, In i (points d) -> 0 <= d_w d i) ->
  (forall j k, (j <= k < length (points d))%nat -> nth j (getcrw total (cum_chisq d)) 0 <= nth k (getcrw total (cum_chisq d)) 0) /\
  (points d <> [] -> getdsrw total (cum_chisq d) = nth (length (points d) - 1) (getcrw total (cum_chisq d)) 0) /\
  (0 < total -> getdsrw total (cum_chisq d) = sqrt (ds_chisq d / total)).
Proof.
  intros W. split. apply crw_mono; auto. split.
  - intros NE. unfold getdsrw, back0.
    assert (L : length (getcrw total (cum_chisq d)) = length (points d)) by (unfold getcrw; rewrite map_length, cum_length; auto).
    rewrite <- L. set (l := getcrw total (cum_chisq d)) in *. clearbody l.
    assert (NL : l <> []) by (intros ->; destruct (points d); simpl in L; [tauto|discriminate]). clear - NL.
    induction l as [|a [|b l] IH]; [tauto|reflexivity|]. rewrite <- (IH ltac:(discriminate)) || idtac.
    change (last (a :: b :: l) 0) with (last (b :: l) 0). rewrite IH by discriminate. cbn [length]. rewrite !Nat.sub_succ, !Nat.sub_0_r. reflexivity.
  - intros TP. rewrite dsrw_val. destruct (Rlt_dec 0 total); [|lra]. f_equal. unfold Rdiv. lra.
Qed.

Lemma ds_chisq_nonneg ds d : weights_ok ds -> In d ds -> 0 <= ds_chisq d.
Proof. intros W I. apply lsum_nonneg. intros i Ii. apply Rmult_le_pos. apply W; auto. apply sq_nonneg. Qed.

Lemma rw_adds_up ds : weights_ok ds -> 0 < lsum (fun d => lsum (fun i => d_w d i * (d_obs d i * d_obs d i)) (points d)) ds ->
  lsum (fun d => getdsrw (total_wsqobs ds) (cum_chisq d) * getdsrw (total_wsqobs ds) (cum_chisq d)) ds =
  chisq_of ds / lsum (fun d => lsum (fun i => d_w d i * (d_obs d i * d_obs d i)) (points d)) ds.
Proof.
  intros W TP.
  assert (T : total_wsqobs ds = lsum (fun d => lsum (fun i => d_w d i * (d_obs d i * d_obs d i)) (points d)) ds).
  { rewrite total_wsqobs_val. apply lsum_ext. intros d _. apply wsqobs_val. }
  rewrite <- T in *. set (tot := total_wsqobs ds) in *. unfold chisq_of, Rdiv. rewrite Rmult_comm, <- lsum_scal.
  apply lsum_ext. intros d I. rewrite dsrw_val. destruct (Rlt_dec 0 tot); [|lra]. rewrite sqrt_sqrt.
  - unfold Rdiv. lra.
  - apply Rmult_le_pos. apply (ds_chisq_nonneg ds); auto. apply Rlt_le. apply Rdiv_lt_0_compat; lra.
Qed.

Lemma step_cum_only toler running c st o n running1 c1 x1 running2 c2 x2 r : fresh running c ->
  ls_steps toler (S n) running c (st, o) = Some (running1, c1, x1) ->
  ls_step toler running1 c1 x1 = (running2, c2, x2, r) ->
  (r = Ok false -> exists t dst, f_theory o t = Ok dst /\ f_cum (snd x2) = map cum_chisq dst /\
    ((f_p (snd x2) = t /\ f_chisq (snd x2) = chisq_of dst /\ f_chisq (snd x2) < f_chisq (snd x1)) \/
     (f_p (snd x2) = f_p (snd x1) /\ f_chisq (snd x2) = f_chisq (snd x1) /\ f_chisq (snd x1) <= chisq_of dst))) /\
  (r = Ok true -> f_cum (snd x2) = f_cum (snd x1)).
Proof.
  intros F H ST. destruct (step_cum toler running c st o n _ _ _ _ _ _ _ F H ST) as [A B]. split; auto.
  intros E. destruct (A E) as (ds & lam & t & dst & _ & _ & _ & _ & C). exists t, dst. auto.
Qed.

Lemma step_trial toler running c st o n running1 c1 x1 running2 c2 x2 : fresh running c ->
  ls_steps toler (S n) running c (st, o) = Some (running1, c1, x1) ->
  ls_step toler running1 c1 x1 = (running2, c2, x2, Ok false) ->
  exists ds lam t dst, f_theory o (f_p (snd x1)) = Ok ds /\ 0 < lam /\ (forall l, ~ free o l -> t l = f_p (snd x1) l) /\
    damped (f_ia o) (f_ma o) ds lam (fun l => t l - f_p (snd x1) l) (gradient ds) /\
    f_theory o t = Ok dst /\
    (f_p (snd x2) = t <-> chisq_of dst < chisq_of ds \/ t = f_p (snd x1)) /\
    (f_p (snd x2) = f_p (snd x1) <-> chisq_of ds <= chisq_of dst).
Proof.
  intros F H ST. destruct (step_cum toler running c st o n _ _ _ _ _ _ _ F H ST) as [A _].
  destruct (A eq_refl) as (ds & lam & t & dst & T1 & L & FX & D & T2 & CU & C). exists ds, lam, t, dst.
  repeat (split; [assumption|]).
  destruct (steps_under_way toler running c st o F n _ _ _ H) as (_ & _ & ds0 & _ & [ds1 s I LP (_ & _ & S3 & _) _ _] & _).
  assert (ds1 = ds). { pose proof (i_th _ _ _ _ I) as Q. rewrite S3 in Q. congruence. } subst ds1.
  pose proof (i_c _ _ _ _ I) as CQ.
  destruct C as [(P & C1 & C2)|(P & C1 & C2)].
  - rewrite CQ, C1 in C2. split.
    + split; auto.
    + split; [|lra]. intros E. exfalso. assert (t = f_p (snd x1)) by congruence. subst t. assert (dst = ds) by congruence. subst. lra.
  - rewrite CQ in C2. split.
    + split; [intros E; right; congruence|]. intros [Q|Q]; [lra|congruence].
    + split; auto.
Qed.

Lemma refine_covariance toler fuel running c st o : fresh running c ->
  let '(running', c', x', r) := ls_refine toler fuel running c (st, o) in
  r = Ok tt -> exists ds, f_theory o (f_p (snd x')) = Ok ds /\ cov_spec o ds (f_covar (snd x')).
Proof.
  intros F. pose proof (refine_fresh toler fuel running c st o F) as H.
  destruct (ls_refine toler fuel running c (st, o)) as [[[r1 c1] x1] q1]. intros E. destruct H as (_ & _ & H).
  destruct (H E) as (ds0 & _ & (ds & T & _ & _ & C) & _). exists ds. auto.
Qed.

Lemma refine_success toler fuel running c st o : fresh running c -> f_setup o = Ok tt -> regular o -> (101 <= fuel)%nat ->
  let '(running', c', x', r) := ls_refine toler fuel running c (st, o) in
  exists ds, f_theory o (f_p (snd x')) = Ok ds /\
    ((r = Ok tt /\ ~ dependent o ds) \/ (r = Err ErrCalculation /\ dependent o ds)).
Proof.
  intros F SU RG FU. pose proof (refine_verdict toler fuel running c st o F SU RG FU) as H.
  destruct (ls_refine toler fuel running c (st, o)) as [[[r1 c1] x1] q1]. destruct H as (ds & T & [C|(A & B & _)]); exists ds; auto.
Qed.

Lemma points_range d i : In i (points d) <-> (d_lo d <= i <= d_hi d)%nat.
Proof. unfold points. rewrite in_seq. lia. Qed.
Lemma points_nth d k : (k < length (points d))%nat -> nth k (points d) 0%nat = (d_lo d + k)%nat.
Proof. unfold points. rewrite seq_length. intros H. apply seq_nth. auto. Qed.
Lemma points_length d : (d_lo d <= d_hi d)%nat -> length (points d) = (d_hi d - d_lo d + 1)%nat.
Proof. unfold points. rewrite seq_length. lia. Qed.
Lemma cum_entry d k : (k < length (points d))%nat ->
  nth k (cum_chisq d) 0 = lsum (fun i => d_w d i * (resid d i * resid d i)) (seq (d_lo d) (S k)).
Proof.
  intros H. unfold cum_chisq. rewrite nth_indep with (d' := lsum (fun i => d_w d i * (resid d i * resid d i)) (firstn (S (length (points d))) (points d))) by (rewrite map_length, seq_length; auto).
  rewrite (map_nth (fun k => lsum (fun i => d_w d i * (resid d i * resid d i)) (firstn (S k) (points d)))).
  rewrite seq_nth by auto. f_equal. unfold points in *. rewrite seq_length in H. rewrite Nat.add_0_l.
  remember (S (d_hi d) - d_lo d)%nat as n. replace n with (S k + (n - S k))%nat by lia. rewrite seq_app, firstn_app, seq_length, Nat.sub_diag, firstn_O, app_nil_r.
  apply firstn_all2. rewrite seq_length. lia.
Qed.
