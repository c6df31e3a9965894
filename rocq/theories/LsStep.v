(** Proofs about mrqmin and whole refinements. *)
From Coq Require Import List Arith Reals Bool Lia Lra FunctionalExtensionality.
From Verif Require Import Base RSum GaussModel GaussSpec GaussProof LsModel LsSpec LsProof CtlProof.
Import ListNotations.
Local Open Scope R_scope.

(** * closed forms of the small loops *)
Lemma copy_vec_val n f t l : copy_vec n f t l = if inr n l then f l else t l.
Proof.
  unfold copy_vec. induction n as [|n IH]. { rewrite inr_0. reflexivity. }
  rewrite loop_up_S. unfold rset at 1. rewrite IH. destruct (Nat.eqb_spec l (S n)).
  - subst. rewrite (proj2 (inr_spec (S n) (S n))) by lia. auto.
  - replace (inr (S n) l) with (inr n l); auto. apply eq_true_iff_eq. rewrite !inr_spec. lia.
Qed.

Lemma fill_row_val (j : nat) (g : nat -> R) n t r c :
  loop (up n) (fun k t => mset t j k (g k)) t r c = if ((r =? j)%nat && inr n c)%bool then g c else t r c.
Proof.
  induction n as [|n IH]. { rewrite inr_0, andb_false_r. reflexivity. }
  rewrite loop_up_S. unfold mset at 1. rewrite IH. destruct (Nat.eqb_spec r j); cbn [andb]; auto.
  destruct (Nat.eqb_spec c (S n)).
  - subst. rewrite (proj2 (inr_spec (S n) (S n))) by lia. auto.
  - replace (inr (S n) c) with (inr n c); auto. apply eq_true_iff_eq. rewrite !inr_spec. lia.
Qed.

Lemma copy_square_val n f t r c : copy_square n f t r c = if (inr n r && inr n c)%bool then f r c else t r c.
Proof.
  unfold copy_square.
  assert (H : forall q, loop (up q) (fun j t => loop (up n) (fun k t => mset t j k (f j k)) t) t r c =
    if (inr q r && inr n c)%bool then f r c else t r c).
  { induction q as [|q IH]. { rewrite inr_0. reflexivity. }
    rewrite loop_up_S. rewrite (fill_row_val (S q) (f (S q)) n). rewrite IH.
    destruct (Nat.eqb_spec r (S q)).
    - subst. rewrite (proj2 (inr_spec (S q) (S q))) by lia. cbn [andb]. destruct (inr n c); auto. rewrite andb_false_r. auto.
    - replace (inr (S q) r) with (inr q r); auto. apply eq_true_iff_eq. rewrite !inr_spec. lia. }
  apply H.
Qed.

Lemma augment_val n al cv lam r c : augment n al cv lam r c =
  if (inr n r && inr n c)%bool then (if (r =? c)%nat then al r r * (1 + lam) else al r c) else cv r c.
Proof.
  unfold augment.
  assert (H : forall q, (q <= n)%nat -> loop (up q) (fun j cv =>
    let cv := loop (up n) (fun k cv => mset cv j k (al j k)) cv in
    mset cv j j (al j j * (1 + lam))) cv r c =
    if (inr q r && inr n c)%bool then (if (r =? c)%nat then al r r * (1 + lam) else al r c) else cv r c).
  { cbv zeta. induction q as [|q IH]; intros L. { rewrite inr_0. reflexivity. }
    rewrite loop_up_S. unfold mset at 1. rewrite (fill_row_val (S q) (al (S q)) n). rewrite IH by lia.
    destruct (Nat.eqb_spec r (S q)).
    - subst. rewrite (proj2 (inr_spec (S q) (S q))) by lia. cbn [andb]. destruct (Nat.eqb_spec c (S q)).
      + subst. rewrite (proj2 (inr_spec n (S q))) by lia. rewrite Nat.eqb_refl. auto.
      + destruct (inr n c). destruct (Nat.eqb_spec (S q) c); [congruence|]. auto. rewrite andb_false_r. auto.
    - cbn [andb]. replace (inr (S q) r) with (inr q r); auto. apply eq_true_iff_eq. rewrite !inr_spec. lia. }
  apply H. lia.
Qed.

Lemma trial_val ma ia a da atry l :
  trial ma ia a da atry l = if (inr ma l && ia l)%bool then a l + da (rank ia l) else atry l.
Proof.
  unfold trial.
  assert (H : forall q, let '(j, t) := loop (up q) (fun l s =>
    if ia l then let (j, t) := s : nat * (nat -> R) in (S j, rset t l (a l + da (S j))) else s) (0%nat, atry) in
    j = rank ia q /\ t l = if (inr q l && ia l)%bool then a l + da (rank ia l) else atry l).
  { induction q as [|q IH]. { rewrite inr_0. cbn. auto. }
    rewrite loop_up_S. destruct (loop (up q) _ _) as [j t]. destruct IH as [-> IH]. simpl rank.
    destruct (ia (S q)) eqn:E.
    - split; [lia|]. unfold rset. destruct (Nat.eqb_spec l (S q)).
      + subst. rewrite (proj2 (inr_spec (S q) (S q))) by lia. rewrite E. cbn [andb]. simpl rank. rewrite E, Nat.add_1_r. auto.
      + rewrite IH. replace (inr (S q) l) with (inr q l); auto. apply eq_true_iff_eq. rewrite !inr_spec. lia.
    - split; [lia|]. rewrite IH. destruct (Nat.eq_dec l (S q)).
      + subst. rewrite E, !andb_false_r. auto.
      + replace (inr (S q) l) with (inr q l); auto. apply eq_true_iff_eq. rewrite !inr_spec. lia. }
  specialize (H ma). destruct (loop (up ma) _ _) as [j t]. cbn [snd]. apply H.
Qed.

(** * invariant between the steps of a refinement *)

Lemma same_refl o : same_session o o. Proof. repeat split. Qed.
Lemma same_trans a b c : same_session a b -> same_session b c -> same_session a c.
Proof. unfold same_session. intros (A1 & A2 & A3 & A4) (B1 & B2 & B3 & B4). repeat split; congruence. Qed.


Record lsinv (st : option statics) (o : fobj) (ds : list dsval) (s : statics) : Prop := mkInv {
  i_st : st = Some s;
  i_ma : s_ma s = f_ma o;
  i_fit : s_mfit s = rank (f_ia o) (f_ma o);
  i_dim : f_dim o = f_ma o;
  i_th : f_theory o (f_p o) = Ok ds;
  i_oc : s_ochisq s = chisq_of ds;
  i_c : f_chisq o = chisq_of ds;
  i_ne : normal_eq (f_ia o) (f_ma o) ds (f_alpha o) (s_beta s);
  i_try : forall l, ~ free o l -> s_atry s l = f_p o l }.



Lemma sum_free_ext ia ma f g : (forall l, (1 <= l <= ma)%nat -> ia l = true -> f l = g l) -> sum_free ia ma f = sum_free ia ma g.
Proof. intros H. apply S1_ext. intros l Hl. destruct (ia l) eqn:E; auto. Qed.
Lemma sum_free_plus ia ma f g : sum_free ia ma (fun l => f l + g l) = sum_free ia ma f + sum_free ia ma g.
Proof. unfold sum_free. rewrite <- S1_plus. apply S1_ext. intros l _. destruct (ia l); lra. Qed.
Lemma sum_free_scal ia ma c f : sum_free ia ma (fun l => c * f l) = c * sum_free ia ma f.
Proof. unfold sum_free. rewrite <- S1_scal. apply S1_ext. intros l _. destruct (ia l); lra. Qed.
Lemma sum_free_single ia ma f k : (1 <= k <= ma)%nat -> ia k = true ->
  (forall l, (1 <= l <= ma)%nat -> ia l = true -> l <> k -> f l = 0) -> sum_free ia ma f = f k.
Proof.
  intros Hk Ek H. unfold sum_free. rewrite (S1_single ma _ k Hk). rewrite Ek. auto.
  intros l Hl NE. destruct (ia l) eqn:E; auto.
Qed.

(** one damped row in compact indices *)
Lemma damped_row ia ma ds al be lam cv x l : normal_eq ia ma ds al be -> (1 <= l <= ma)%nat -> ia l = true ->
  S1 (rank ia ma) (fun c => augment (rank ia ma) al cv lam (rank ia l) c * x c) =
  sum_free ia ma (fun m => curvature ds l m * x (rank ia m)) + lam * curvature ds l l * x (rank ia l).
Proof.
  intros [N1 _] Hl El. rewrite S1_compact.
  assert (RL : (1 <= rank ia l <= rank ia ma)%nat).
  { split. apply rank_pos; auto; lia. apply rank_mono; lia. }
  rewrite (sum_free_ext ia ma _ (fun m => curvature ds l m * x (rank ia m) + (if (m =? l)%nat then lam * curvature ds l l * x (rank ia l) else 0))).
  - rewrite sum_free_plus. f_equal. rewrite (sum_free_single _ _ _ l); auto. rewrite Nat.eqb_refl. auto.
    intros m _ _ NE. destruct (Nat.eqb_spec m l); congruence.
  - intros m Hm Em. rewrite augment_val.
    assert (RM : (1 <= rank ia m <= rank ia ma)%nat).
    { split. apply rank_pos; auto; lia. apply rank_mono; lia. }
    rewrite (proj2 (inr_spec _ _) RL), (proj2 (inr_spec _ _) RM). cbn [andb].
    destruct (Nat.eqb_spec (rank ia l) (rank ia m)) as [E|NE].
    + assert (l = m) by (apply (rank_inj ia); auto). subst m. rewrite Nat.eqb_refl. rewrite N1 by auto. lra.
    + destruct (Nat.eqb_spec m l); [subst; congruence|]. rewrite N1 by auto. lra.
Qed.

Lemma damped_solves ia ma ds al be lam cv x y : normal_eq ia ma ds al be ->
  (solves (rank ia ma) (augment (rank ia ma) al cv lam) x y <->
   damped ia ma ds lam (fun l => x (rank ia l)) (fun l => y (rank ia l))).
Proof.
  intros NE. split.
  - intros H l Hl El. rewrite <- (H (rank ia l)).
    + rewrite (damped_row ia ma ds al be) by auto. auto.
    + split. apply rank_pos; auto; lia. apply rank_mono; lia.
  - intros H r Hr. destruct (rank_onto ia ma r Hr) as (l & Hl & El & <-).
    rewrite (damped_row ia ma ds al be) by auto. apply H; auto.
Qed.

Lemma damped_singular_iff ia ma ds al be lam cv : normal_eq ia ma ds al be ->
  (singular (rank ia ma) (augment (rank ia ma) al cv lam) <-> damped_singular ia ma ds lam).
Proof.
  intros NE. split.
  - intros (x & (c & Hc & NZ) & S). rewrite (damped_solves ia ma ds al be) in S by auto.
    exists (fun l => x (rank ia l)). split; auto. destruct (rank_onto ia ma c Hc) as (l & Hl & El & <-). exists l. auto.
  - intros (x & (l & Hl & El & NZ) & SX).
    (* a compact vector with the given components *)
    assert (EX : exists z, forall m, (1 <= m <= ma)%nat -> ia m = true -> z (rank ia m) = x m).
    { assert (Q : forall q, exists z, forall m, (1 <= m <= q)%nat -> ia m = true -> z (rank ia m) = x m).
      { induction q as [|q [z Hz]]. { exists (fun _ => 0). intros; lia. }
        exists (rset z (rank ia (S q)) (if ia (S q) then x (S q) else z (rank ia (S q)))). intros m Hm Em. unfold rset.
        destruct (Nat.eqb_spec (rank ia m) (rank ia (S q))) as [E|NEQ].
        - destruct (ia (S q)) eqn:ES.
          + assert (m = S q) by (apply (rank_inj ia); auto). subst; auto.
          + rewrite <- E. apply Hz; auto. destruct (Nat.eq_dec m (S q)); [subst; congruence|lia].
        - apply Hz; auto. destruct (Nat.eq_dec m (S q)); [subst; congruence|lia]. }
      apply Q. }
    destruct EX as [z Hz]. exists z. split.
    + exists (rank ia l). rewrite Hz by auto. split; auto. split. apply rank_pos; auto; lia. apply rank_mono; lia.
    + rewrite (damped_solves ia ma ds al be) by auto. intros m Hm Em. rewrite Hz by auto.
      rewrite <- (SX m Hm Em). f_equal. apply sum_free_ext. intros k Hk Ek. rewrite Hz by auto. auto.
Qed.

(** * one step *)
Definition accepted o o' st' t dst :=
  f_p o' = t /\ f_alambda o' = f_alambda o * / 10 /\ (exists s', lsinv st' o' dst s') /\
  f_chisq o' = chisq_of dst /\ f_cum o' = map cum_chisq dst.
Definition rejected o o' st' ds (dst : list dsval) :=
  f_p o' = f_p o /\ f_alambda o' = f_alambda o * 10 /\ (exists s', lsinv st' o' ds s') /\
  f_chisq o' = f_chisq o /\ f_cum o' = map cum_chisq dst.

Lemma free_dec o l : {free o l} + {~ free o l}.
Proof.
  unfold free. destruct (f_ia o l); [|right; intros [_ H]; discriminate].
  destruct (inr (f_ma o) l) eqn:E; [left|right]. apply inr_spec in E; auto. intros [H _]. apply inr_spec in H. congruence.
Qed.

Lemma free_inr o l : (inr (f_ma o) l && f_ia o l)%bool = true <-> free o l.
Proof. unfold free. rewrite andb_true_iff, inr_spec. tauto. Qed.

Lemma mrq_main_step st o ds s : lsinv st o ds s -> 0 < f_alambda o ->
  match mrq_main s o with
  | (st', o', Ok _) => same_session o o' /\ f_ochisq o' = f_ochisq o /\ exists t dst,
      (forall l, ~ free o l -> t l = f_p o l) /\
      damped (f_ia o) (f_ma o) ds (f_alambda o) (fun l => t l - f_p o l) (gradient ds) /\
      f_theory o t = Ok dst /\
      ((chisq_of dst < chisq_of ds /\ accepted o o' st' t dst) \/
       (chisq_of ds <= chisq_of dst /\ rejected o o' st' ds dst))
  | (st', o', Err e) => same_session o o' /\ fixed_kept o o' /\ f_chisq o' = f_chisq o /\
      ((e = ErrCalculation /\ damped_singular (f_ia o) (f_ma o) ds (f_alambda o) /\ f_p o' = f_p o) \/
       (exists t, f_theory o t = Err e /\ f_p o' = t))
  | (st', o', UB) => same_session o o' /\ fixed_kept o o' /\ exists t, f_theory o t = UB
  | (st', o', NoFuel) => same_session o o' /\ fixed_kept o o' /\ exists t, f_theory o t = NoFuel
  end.
Proof.
  intros I LP. destruct I as [I1 I2 I3 I4 I5 I6 I7 I8 I9].
  unfold mrq_main. rewrite I2, I3, I4.
  pose proof (rank_le (f_ia o) (f_ma o)) as RL.
  rewrite Nat.leb_refl, (proj2 (Nat.leb_le _ _) RL). cbn [andb negb].
  set (mfit := rank (f_ia o) (f_ma o)) in *.
  set (cv := augment mfit (f_alpha o) (f_covar o) (f_alambda o)).
  pose proof (gaussj_spec mfit 1 cv (fun j _ => s_beta s j)) as GS.
  destruct (gaussj mfit 1 cv (fun j _ => s_beta s j)) as [[cv' oneda]|e| |]; try contradiction.
  2:{ destruct GS as [-> SI]. split. repeat split. split. intros l _; auto. split; auto. left. split; auto.
      split; auto. unfold cv, mfit in SI. rewrite damped_singular_iff in SI by eauto. auto. }
  destruct GS as (_ & SOL & _).
  destruct (Req_EM_T (f_alambda o) 0); [lra|].
  rewrite free_count_rank. change (f_ia (set_covar o cv')) with (f_ia o). fold mfit.
  destruct (Nat.ltb_spec (Nat.max (s_dan s) mfit) mfit); [lia|].
  set (da := copy_vec mfit (fun j => oneda j 1%nat) (s_da s)).
  cbn [s_atry s_ma s_ochisq s_beta]. set (t := trial (f_ma o) (f_ia o) (f_p o) da (s_atry s)).
  assert (TF : forall l, ~ free o l -> t l = f_p o l).
  { intros l NF. unfold t. rewrite trial_val. destruct (inr (f_ma o) l && f_ia o l)%bool eqn:E.
    - apply free_inr in E. tauto.
    - apply I9; auto. }
  assert (DA : damped (f_ia o) (f_ma o) ds (f_alambda o) (fun l => t l - f_p o l) (gradient ds)).
  { specialize (SOL (fun j => oneda j 1%nat) 1%nat ltac:(lia)). destruct SOL as [_ SOL].
    specialize (SOL ltac:(auto)). unfold cv, mfit in SOL. rewrite damped_solves in SOL by eauto.
    destruct I8 as [_ N2].
    assert (TV : forall l, (1 <= l <= f_ma o)%nat -> f_ia o l = true -> t l - f_p o l = oneda (rank (f_ia o) l) 1%nat).
    { intros l Hl El. unfold t. rewrite trial_val. rewrite (proj2 (inr_spec _ _) Hl), El. cbn [andb].
      unfold da. rewrite copy_vec_val. rewrite (proj2 (inr_spec mfit (rank (f_ia o) l))). lra.
      split. apply rank_pos; auto; lia. apply rank_mono; lia. }
    intros l Hl El. rewrite (TV l Hl El). rewrite <- (N2 l Hl El). rewrite <- (SOL l Hl El). f_equal.
    apply sum_free_ext. intros m Hm Em. rewrite (TV m Hm Em). auto. }
  pose proof (mrqcof_spec (set_covar o cv') t (f_covar (set_covar o cv')) da) as MS.
  destruct (mrqcof (set_covar o cv') t (f_covar (set_covar o cv')) da) as [[[o1 cv1] da1] r].
  change (f_theory (set_covar o cv')) with (f_theory o) in MS.
  change (f_ia (set_covar o cv')) with (f_ia o) in MS. change (f_ma (set_covar o cv')) with (f_ma o) in MS.
  destruct r as [c|e| |].
  - destruct MS as (dst & TH & -> & -> & NE).
    destruct (Rlt_dec (chisq_of dst) (s_ochisq s)) as [L|L].
    + split. repeat split. split. reflexivity. exists t, dst. split; auto. split; auto. split; auto. left. rewrite I6 in L. split; auto.
      assert (CP : copy_vec (f_ma o) t (f_p o) = t).
      { apply functional_extensionality. intros l. rewrite copy_vec_val. destruct (inr (f_ma o) l) eqn:E; auto.
        symmetry. apply TF. intros [H1 _]. apply inr_spec in H1. congruence. }
      split. cbn. auto. split. reflexivity. split; [|split; reflexivity].
      eexists. constructor; try reflexivity; cbn; auto.
      * rewrite CP; auto.
      * destruct NE as [N1 N2]. split.
        -- intros l m Hl El Hm Em. rewrite copy_square_val.
           rewrite (proj2 (inr_spec mfit (rank (f_ia o) l))), (proj2 (inr_spec mfit (rank (f_ia o) m))); cbn [andb]; auto;
           (split; [apply rank_pos; auto; lia|apply rank_mono; lia]).
        -- intros l Hl El. rewrite copy_vec_val. rewrite (proj2 (inr_spec mfit (rank (f_ia o) l))); auto.
           split; [apply rank_pos; auto; lia|apply rank_mono; lia].
      * intros l NF. rewrite CP. auto.
    + split. repeat split. split. reflexivity. exists t, dst. split; auto. split; auto. split; auto. right. rewrite I6 in L. split. lra.
      split. reflexivity. split. reflexivity. split; [|split].
      * eexists. constructor; try reflexivity; cbn; auto.
      * cbn. rewrite I6, I7. auto.
      * reflexivity.
  - destruct MS as [TH ->]. split. repeat split. split. intros l NF. cbn. auto. split. reflexivity. right. exists t. auto.
  - destruct MS as [TH ->]. split. repeat split. split. intros l NF. cbn. auto. exists t; auto.
  - destruct MS as [TH ->]. split. repeat split. split. intros l NF. cbn. auto. exists t; auto.
Qed.

(** * the first step *)
Lemma mrq_init_fresh st o : f_alambda o < 0 -> f_dim o = f_ma o ->
  match mrq_init st o with
  | (st', o', Ok _) => exists ds s, f_theory o (f_p o) = Ok ds /\ lsinv st' o' ds s /\ same_session o o' /\
       f_p o' = f_p o /\ f_ochisq o' = f_ochisq o /\ f_alambda o' = / 1000 /\ f_cum o' = map cum_chisq ds
  | (st', o', Err e) => same_session o o' /\ f_p o' = f_p o /\ f_theory o (f_p o) = Err e
  | (st', o', UB) => same_session o o' /\ f_p o' = f_p o /\ f_theory o (f_p o) = UB
  | (st', o', NoFuel) => same_session o o' /\ f_p o' = f_p o /\ f_theory o (f_p o) = NoFuel
  end.
Proof.
  intros L D. unfold mrq_init. destruct (Rlt_dec (f_alambda o) 0); [|lra].
  pose proof (mrqcof_spec (set_lambda o (/ 1000)) (f_p o) (f_alpha (set_lambda o (/ 1000))) (fun _ => 0)) as MS.
  change (f_alpha (set_lambda o (/ 1000))) with (f_alpha o) in *.
  destruct (mrqcof (set_lambda o (/ 1000)) (f_p o) (f_alpha o) (fun _ => 0)) as [[[o1 al] be] [c|e| |]].
  - destruct MS as (ds & TH & -> & -> & NE). exists ds. eexists. split; auto. split.
    + constructor; try reflexivity; cbn; auto. apply free_count_rank.
    + repeat split.
  - destruct MS as [TH ->]. repeat split; auto.
  - destruct MS as [TH ->]. repeat split; auto.
  - destruct MS as [TH ->]. repeat split; auto.
Qed.


Lemma rank_identity ia l n : ia l = true -> ia n = true -> identity (rank ia l) (rank ia n) = identity l n.
Proof.
  intros L N. unfold identity. destruct (Nat.eqb_spec (rank ia l) (rank ia n)) as [E|NE].
  - apply rank_inj in E; auto. subst. rewrite Nat.eqb_refl. auto.
  - destruct (Nat.eqb_spec l n); auto. subst. congruence.
Qed.

Lemma augment_0 ia ma ds al be cv l m : normal_eq ia ma ds al be ->
  (1 <= l <= ma)%nat -> ia l = true -> (1 <= m <= ma)%nat -> ia m = true ->
  augment (rank ia ma) al cv 0 (rank ia l) (rank ia m) = curvature ds l m.
Proof.
  intros [N1 _] Hl El Hm Em. rewrite augment_val.
  rewrite (proj2 (inr_spec (rank ia ma) (rank ia l))), (proj2 (inr_spec (rank ia ma) (rank ia m))); cbn [andb];
    try (split; [apply rank_pos; auto; lia|apply rank_mono; lia]).
  destruct (Nat.eqb_spec (rank ia l) (rank ia m)) as [E|_].
  - rewrite E at 2. rewrite N1 by auto. lra.
  - apply N1; auto.
Qed.

Lemma mrq_main_final st o ds s : lsinv st o ds s -> f_alambda o = 0 ->
  match mrq_main s o with
  | (st', o', Ok _) => same_session o o' /\ f_p o' = f_p o /\ f_chisq o' = f_chisq o /\ f_cum o' = f_cum o /\ st' = None /\
      cov_spec o ds (f_covar o')
  | (st', o', Err e) => same_session o o' /\ f_p o' = f_p o /\ f_chisq o' = f_chisq o /\ e = ErrCalculation /\
      f_alpha o' = f_alpha o /\ f_dim o' = f_dim o /\ f_alambda o' = 0 /\ st' = Some s /\
      damped_singular (f_ia o) (f_ma o) ds 0
  | _ => False
  end.
Proof.
  intros I L0. destruct I as [I1 I2 I3 I4 I5 I6 I7 I8 I9].
  unfold mrq_main. rewrite I2, I3, I4, L0.
  pose proof (rank_le (f_ia o) (f_ma o)) as RL.
  rewrite Nat.leb_refl, (proj2 (Nat.leb_le _ _) RL). cbn [andb negb].
  set (mfit := rank (f_ia o) (f_ma o)) in *.
  set (cv := augment mfit (f_alpha o) (f_covar o) 0).
  pose proof (gaussj_full mfit 1 cv (fun j _ => s_beta s j)) as GS.
  destruct GS as [(cv' & oneda & G & INV & _)|[G SI]]; rewrite G.
  - destruct (Req_EM_T 0 0); [|congruence].
    split. repeat split. split. reflexivity. split. reflexivity. split. reflexivity. split. reflexivity.
    cbn [f_covar set_alpha set_covar].
    destruct (covsrt_spec cv' (f_ma o) (f_ia o)) as [CS _]. fold mfit in CS. split.
    + intros l n Hl Hn NF. rewrite CS by auto. destruct (f_ia o l), (f_ia o n); auto. tauto.
    + intros l n [Hl El] [Hn En].
      assert (RR : forall k, (1 <= k <= f_ma o)%nat -> f_ia o k = true -> (1 <= rank (f_ia o) k <= mfit)%nat).
      { intros k Hk Ek. split. apply rank_pos; auto; lia. apply rank_mono; lia. }
      destruct (INV (rank (f_ia o) l) (rank (f_ia o) n) (RR l Hl El) (RR n Hn En)) as [V1 V2].
      unfold matprod in V1, V2. unfold mfit in V1, V2. rewrite S1_compact in V1, V2. rewrite rank_identity in V1, V2 by auto.
      split.
      * rewrite <- V2. apply sum_free_ext. intros m Hm Em. rewrite CS by auto. rewrite El, Em. cbn [andb].
        unfold cv, mfit. rewrite (augment_0 _ _ ds _ (s_beta s)) by auto. auto.
      * rewrite <- V1. apply sum_free_ext. intros m Hm Em. rewrite CS by auto. rewrite En, Em. cbn [andb].
        unfold cv, mfit. rewrite (augment_0 _ _ ds _ (s_beta s)) by auto. auto.
  - split. repeat split. repeat split; auto. unfold cv, mfit in SI. rewrite damped_singular_iff in SI by eauto. auto.
Qed.

(** * whole refinements *)
(** state of a refinement under way that was started on [o0] *)
Inductive under_way (o0 : fobj) (ds0 : list dsval) (x : lst) : Prop :=
| UW (ds : list dsval) (s : statics) :
  lsinv (fst x) (snd x) ds s ->
  0 < f_alambda (snd x) ->
  same_session o0 (snd x) ->
  fixed_kept o0 (snd x) ->
  (f_p (snd x) = f_p o0 /\ chisq_of ds = chisq_of ds0 \/ chisq_of ds < chisq_of ds0) ->
  under_way o0 ds0 x.


Lemma inv_session st o ds s o1 : lsinv st o ds s -> f_p o1 = f_p o -> f_chisq o1 = f_chisq o -> f_alpha o1 = f_alpha o ->
  f_dim o1 = f_dim o -> same_session o o1 -> lsinv st o1 ds s.
Proof.
  intros [I1 I2 I3 I4 I5 I6 I7 I8 I9] P C A D (S1 & S2 & S3 & S4). constructor; rewrite ?P, ?C, ?A, ?D, ?S1, ?S2, ?S3; auto.
  intros l NF. apply I9. unfold free in *. rewrite S1, S2 in NF. auto.
Qed.

Lemma own_of_inv st o ds s : lsinv st o ds s -> chisq_is_own o.
Proof. intros [I1 I2 I3 I4 I5 I6 I7 I8 I9]. exists ds. auto. Qed.

Lemma fixed_trans o0 o1 o2 : same_session o0 o1 -> fixed_kept o0 o1 -> fixed_kept o1 o2 -> fixed_kept o0 o2.
Proof.
  intros (S1 & S2 & _) F G l NF. rewrite G. auto. unfold free in *. rewrite S1, S2. auto.
Qed.

Lemma mrqmin_nonneg st s o : st = Some s -> 0 <= f_alambda o -> mrqmin st o = mrq_main s o.
Proof. intros -> L. unfold mrqmin, mrq_init. destruct (Rlt_dec (f_alambda o) 0); [lra|]. reflexivity. Qed.

Lemma ls_iterate_next toler o0 ds0 x : under_way o0 ds0 x ->
  let (x', r) := ls_iterate toler x in
  same_session o0 (snd x') /\ fixed_kept o0 (snd x') /\
  (forall b, r = Ok b -> under_way o0 ds0 x' /\ improves (snd x) (snd x') /\ chisq_is_own (snd x')).
Proof.
  intros [ds s I L SS FK BT]. destruct x as [st o]. cbn [fst snd] in *. unfold ls_iterate.
  set (o1 := set_ochisq o (f_chisq o)).
  assert (I' : lsinv st o1 ds s) by (apply (inv_session st o); auto; repeat split).
  assert (SS1 : same_session o0 o1) by (eapply same_trans; [eauto|repeat split]).
  assert (FK1 : fixed_kept o0 o1) by (intros l NF; apply FK; auto).
  rewrite (mrqmin_nonneg st s o1) by (destruct I; auto; cbn; lra).
  pose proof (mrq_main_step st o1 ds s I' L) as M. destruct (mrq_main s o1) as [[st' o'] [u|e| |]]; cbn [snd fst omap obind].
  - destruct M as (MS & OC & t & dst & TF & DA & TH & C).
    assert (S2 : same_session o0 o') by (eapply same_trans; eauto).
    assert (F2 : fixed_kept o1 o').
    { intros l NF. destruct C as [(_ & (P & _))|(_ & (P & _))]; rewrite P; auto. }
    assert (F3 : fixed_kept o0 o') by (eapply fixed_trans; [|eauto|eauto]; auto).
    split; auto. split; auto. intros b _.
    destruct C as [(CL & (P & LM & (s' & I2) & CQ & _))|(CL & (P & LM & (s' & I2) & CQ & _))].
    + split. exists dst s'; auto. cbn [snd]. rewrite LM. cbn. lra. right. destruct BT as [[_ BT]|BT]; lra.
      split. right. rewrite CQ. destruct I. rewrite i_c0. auto. eapply own_of_inv; eauto.
    + split. exists ds s'; auto. cbn [snd]. rewrite LM. cbn. lra. cbn [snd]. rewrite P. auto.
      split. left. split. rewrite P. reflexivity. rewrite CQ. reflexivity. eapply own_of_inv; eauto.
  - destruct M as (MS & FK2 & _). split. eapply same_trans; eauto. split. eapply fixed_trans; [|eauto|eauto]; auto. discriminate.
  - destruct M as (MS & FK2 & _). split. eapply same_trans; eauto. split. eapply fixed_trans; [|eauto|eauto]; auto. discriminate.
  - destruct M as (MS & FK2 & _). split. eapply same_trans; eauto. split. eapply fixed_trans; [|eauto|eauto]; auto. discriminate.
Qed.

Lemma ls_iterate_first toler st o : f_alambda o < 0 -> f_dim o = f_ma o ->
  let (x', r) := ls_iterate toler (st, o) in
  same_session o (snd x') /\ fixed_kept o (snd x') /\
  (forall b, r = Ok b -> exists ds0, f_theory o (f_p o) = Ok ds0 /\ under_way o ds0 x' /\ chisq_is_own (snd x')).
Proof.
  intros L D. unfold ls_iterate. set (o1 := set_ochisq o (f_chisq o)).
  assert (SS1 : same_session o o1) by (repeat split).
  unfold mrqmin. pose proof (mrq_init_fresh st o1 L D) as MI.
  destruct (mrq_init st o1) as [[st1 o2] [u|e| |]].
  2-4: destruct MI as (MS & P & _); cbn [snd omap obind]; (split; [exact (same_trans _ _ _ SS1 MS)|split; [intros l _; rewrite P; reflexivity|discriminate]]).
  destruct MI as (ds0 & s & TH & I & MS & P & OC & LM & _).
  assert (SS2 : same_session o o2) by exact (same_trans _ _ _ SS1 MS).
  assert (FK2 : fixed_kept o o2) by (intros l _; rewrite P; reflexivity).
  assert (IS : st1 = Some s) by (destruct I; auto). subst st1.
  assert (LP : 0 < f_alambda o2) by (rewrite LM; lra).
  pose proof (mrq_main_step _ o2 ds0 s I LP) as M. destruct (mrq_main s o2) as [[st' o'] [v|e| |]]; cbn [snd fst omap obind].
  - destruct M as (MS2 & OC2 & t & dst & TF & DA & TH2 & C).
    assert (S2 : same_session o o') by exact (same_trans _ _ _ SS2 MS2).
    assert (F2 : fixed_kept o2 o').
    { intros l NF. destruct C as [(_ & (Q & _))|(_ & (Q & _))]; rewrite Q; auto. }
    assert (F3 : fixed_kept o o') by exact (fixed_trans _ _ _ SS2 FK2 F2).
    split; auto. split; auto. intros b _. exists ds0. split; auto.
    destruct C as [(CL & (Q & LM2 & (s' & I2) & CQ & _))|(CL & (Q & LM2 & (s' & I2) & CQ & _))].
    + split. exists dst s'; auto. cbn [snd]. rewrite LM2, LM. lra. eapply own_of_inv; eauto.
    + split. exists ds0 s'; auto. cbn [snd]. rewrite LM2, LM. lra. cbn [snd]. left. rewrite Q, P. auto. eapply own_of_inv; eauto.
  - destruct M as (MS2 & FK3 & _). split. exact (same_trans _ _ _ SS2 MS2). split. exact (fixed_trans _ _ _ SS2 FK2 FK3). discriminate.
  - destruct M as (MS2 & FK3 & _). split. exact (same_trans _ _ _ SS2 MS2). split. exact (fixed_trans _ _ _ SS2 FK2 FK3). discriminate.
  - destruct M as (MS2 & FK3 & _). split. exact (same_trans _ _ _ SS2 MS2). split. exact (fixed_trans _ _ _ SS2 FK2 FK3). discriminate.
Qed.

Lemma ls_setup_spec st o :
  let (x, r) := ls_setup (st, o) in
  fst x = st /\ same_session o (snd x) /\ f_p (snd x) = f_p o /\ f_alambda (snd x) = -1 /\
  (r = Ok tt -> f_dim (snd x) = f_ma (snd x)) /\ r = f_setup o.
Proof.
  unfold ls_setup. cbn [f_setup set_chisq set_lambda]. destruct (f_setup o) as [[]|e| |] eqn:E; cbn; repeat split; auto; discriminate.
Qed.


Lemma ls_finish_spec o0 ds0 x : under_way o0 ds0 x ->
  let (x', r) := ls_finish x in
  same_session o0 (snd x') /\ fixed_kept o0 (snd x') /\ f_p (snd x') = f_p (snd x) /\ f_chisq (snd x') = f_chisq (snd x) /\
  match r with
  | Ok _ => final_report o0 ds0 (snd x') /\ fst x' = None /\ f_cum (snd x') = f_cum (snd x)
  | Err e => e = ErrCalculation
  | _ => False
  end.
Proof.
  intros [ds s I L SS FK BT]. destruct x as [st o]. cbn [fst snd] in *. unfold ls_finish.
  set (o1 := set_lambda o 0).
  assert (I' : lsinv st o1 ds s) by (apply (inv_session st o); auto; repeat split).
  assert (SS1 : same_session o0 o1) by (eapply same_trans; [eauto|repeat split]).
  rewrite (mrqmin_nonneg st s o1) by (destruct I; auto; cbn; lra).
  pose proof (mrq_main_final st o1 ds s I' eq_refl) as M. destruct (mrq_main s o1) as [[st' o'] [u|e| |]]; try contradiction.
  - destruct M as (MS & P & C & CU & SN & CV). cbn [obind].
    assert (TH : f_theory o' (f_p o') = Ok ds).
    { destruct MS as (_ & _ & -> & _). rewrite P. destruct I'. auto. }
    rewrite TH. cbn [omap obind snd fst]. split. eapply same_trans; eauto. split.
    { intros l NF. rewrite P. apply FK; auto. } split. rewrite P; auto. split. rewrite C; auto.
    split; [|split; auto]. exists ds. destruct SS1 as (A1 & A2 & A3 & A4). split. rewrite P, <- A3. destruct I'. auto.
    split. rewrite C. destruct I'; auto. split. rewrite P. auto. unfold cov_spec, free in *. rewrite A1, A2 in CV. auto.
  - destruct M as (MS & P & C & -> & _). cbn [obind snd fst]. split. eapply same_trans; eauto. split.
    { intros l NF. rewrite P. apply FK; auto. } split. rewrite P; auto. split. rewrite C; auto. auto.
Qed.
