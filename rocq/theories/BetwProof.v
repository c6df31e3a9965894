(** One step of the refinement on the program's memory: what it leaves there. *)
From Coq Require Import List Arith ZArith Reals Bool Lia Lra FunctionalExtensionality.
From Verif Require Import Base GaussModel GaussSpec GaussProof LsModel LsSpec LsProof LsStep RunModel RunProof.
Import ListNotations.
Local Open Scope R_scope.

Section Sim.
Context {W : Type}.
Variable put : W -> (nat -> R) -> W.
Variable calc : W -> W * outcome (list dsval).
Variable wsetup : W -> W * outcome unit.
Variable wlast : W -> W * outcome unit.
Variable th : (nat -> R) -> outcome (list dsval).
Variable n : nat.
Variable Inv : W -> Prop.
Variable Par : W -> (nat -> R) -> Prop.
Variable Cal : W -> (nat -> R) -> Prop.
Hypothesis Hput : forall w a, Inv w -> Inv (put w a) /\ Par (put w a) a.
Hypothesis Hkeep : forall w a q, Cal w q -> Cal (put w a) q.
Hypothesis Hcalc : forall w a, Inv w -> Par w a -> exists w', calc w = (w', th a) /\ Inv w' /\ Par w' a.
Hypothesis Hext : forall p q, (forall l, (1 <= l <= n)%nat -> p l = q l) -> th p = th q.
Hypothesis Hcal : forall w a ds, Inv w -> Par w a -> th a = Ok ds -> Cal (fst (calc w)) a.

Lemma wcof_cal o w a al be o' w' al' be' x : f_theory o = th -> Inv w -> wcof put calc o w a al be = (o', w', al', be', Ok x) ->
  Cal w' a /\ Inv w' /\ exists ds, th a = Ok ds /\ x = chisq_of ds.
Proof.
  intros T I E. destruct (wcof_sim put calc th Inv Par Hput Hcalc o w a al be T I) as (w1 & o1 & al1 & be1 & r & E1 & E2 & I1 & P1 & _).
  rewrite E2 in E. injection E as -> -> -> -> ->. pose proof (mrqcof_spec o a al be) as M. rewrite E1 in M. destruct M as (ds & TH & C & _). rewrite T in TH.
  split; [|eauto]. destruct (Hput w a I) as [I2 P2]. pose proof (Hcal _ _ ds I2 P2 TH) as K.
  unfold wcof in E2. destruct (mrq_zero _ _ _). destruct (calc (put w a)) as [w2 r2]. cbn [fst] in K. destruct r2 as [ds2|e| |]; try discriminate E2.
  destruct (acc_all _ _ _ _) as [[[? ?] ?] ?]. injection E2 as _ -> _ _ _. auto.
Qed.

(** what a step leaves *)
Definition tried (o o' : fobj) (w' : W) : Prop :=
  exists q dsq ds lam, th q = Ok dsq /\ th (f_p o) = Ok ds /\ Cal w' q /\ (forall l, ~ free o l -> q l = f_p o l) /\
    0 < lam /\ damped (f_ia o) (f_ma o) ds lam (fun l => q l - f_p o l) (gradient ds) /\
    ((chisq_of dsq < chisq_of ds /\ f_p o' = q /\ f_chisq o' = chisq_of dsq) \/
     (chisq_of ds <= chisq_of dsq /\ f_p o' = f_p o /\ f_chisq o' = chisq_of ds)).
Lemma wmain_cal s o w st st' o' w' ds : f_theory o = th -> Inv w -> lsinv st o ds s -> 0 < f_alambda o -> wmain put calc s o w = (st', o', w', Ok tt) -> tried o o' w'.
Proof.
  intros T I LI L E. destruct LI as [I1 I2 I3 I4 I5 I6 I7 I8 I9]. unfold wmain in E. cbv zeta in E. destruct (negb _). discriminate.
  rewrite I3 in E. set (mfit := rank (f_ia o) (f_ma o)) in *. set (cv := augment mfit (f_alpha o) (f_covar o) (f_alambda o)) in *.
  pose proof (gaussj_spec mfit 1 cv (fun j _ => s_beta s j)) as GS.
  destruct (gaussj mfit 1 cv (fun j _ => s_beta s j)) as [[cv' oneda]|e| |]; try discriminate. destruct (Req_EM_T (f_alambda o) 0) as [|_]; [lra|].
  destruct GS as (_ & SOL & _).
  destruct (_ <? _)%nat; try discriminate. set (da := copy_vec _ _ _) in E.
  match type of E with context [wcof put calc ?a ?b ?c ?d ?e] => destruct (wcof put calc a b c d e) as [[[[o1 w1] al1] be1] r] eqn:C end.
  destruct r as [x|e| |]; try discriminate. 
  destruct (wcof_cal (set_covar o cv') _ _ _ _ _ _ _ _ _ T I C) as (K & J & dsq & TH & X). set (q := trial _ _ _ _ _) in *.
  assert (TF : forall l, ~ free o l -> q l = f_p o l).
  { intros l NF. unfold q. cbn [s_atry set_covar f_ia]. rewrite trial_val. pose proof NF as NF'. rewrite <- free_inr in NF'. destruct (_ && _)%bool; auto. destruct (NF' eq_refl). }
  assert (DA : damped (f_ia o) (f_ma o) ds (f_alambda o) (fun l => q l - f_p o l) (gradient ds)).
  { specialize (SOL (fun j => oneda j 1%nat) 1%nat ltac:(lia)). destruct SOL as [_ SOL].
    specialize (SOL ltac:(auto)). unfold cv, mfit in SOL. rewrite damped_solves in SOL by eauto.
    destruct I8 as [_ N2].
    assert (TV : forall l, (1 <= l <= f_ma o)%nat -> f_ia o l = true -> q l - f_p o l = oneda (rank (f_ia o) l) 1%nat).
    { intros l Hl El. unfold q. cbn [s_atry set_covar f_ia]. rewrite trial_val. rewrite (proj2 (inr_spec _ _) Hl), El. cbn [andb].
      unfold da. rewrite copy_vec_val. rewrite (proj2 (inr_spec mfit (rank (f_ia o) l))). lra.
      split. apply rank_pos; auto; lia. apply rank_mono; lia. }
    intros l Hl El. rewrite (TV l Hl El). rewrite <- (N2 l Hl El). rewrite <- (SOL l Hl El). f_equal.
    apply sum_free_ext. intros m Hm Em. rewrite (TV m Hm Em). auto. }
  exists q, dsq, ds, (f_alambda o). split; auto. split. { rewrite <- T. exact I5. }
  cbn [s_ochisq] in E. rewrite I6, X in E. destruct (Rlt_dec (chisq_of dsq) (chisq_of ds)) as [H|H]; injection E as <- <- <-; (split; [apply Hkeep; auto|]); (split; [exact TF|]); (split; [exact L|]); (split; [exact DA|]).
  - left. split; auto. split; auto. cbn [set_p f_p]. apply functional_extensionality. intros l. rewrite copy_vec_val. destruct (GaussProof.inr (f_ma o) l) eqn:Y; auto.
    symmetry. apply TF. intros [H1 _]. apply inr_spec in H1. congruence.
  - right. split. lra. split; auto.
Qed.
(** the parts of the object that are used *)
Lemma tried_from o o1 o' w' : same_session o o1 -> f_p o1 = f_p o -> tried o1 o' w' -> tried o o' w'.
Proof.
  intros (S1 & S2 & S3 & S4) P (q & dsq & ds & lam & H). exists q, dsq, ds, lam. unfold free in *. rewrite S1, S2, P in H. exact H.
Qed.
(** the first step, and its course *)
Lemma first_step toler running c st o w : fresh running c -> f_theory o = th -> f_ma o = n -> f_setup o = Ok tt ->
  (exists w', wsetup w = (w', f_setup o) /\ (f_setup o = Ok tt -> Inv w' /\ Par w' (f_p o))) ->
  exists b c' st' o' w' r, ls_step toler running c (st, o) = (b, c', (st', o'), r) /\ wstep put calc wsetup wlast toler running c (st, o, w) = (b, c', (st', o', w'), r) /\
    (r = Ok false -> Inv w' /\ Par w' (f_p o') /\ tried o o' w').
Proof.
  intros FR T MA SU (w0 & SE & IP). unfold wstep, ls_step, refine_step.
  assert (F : (running && negb (c_iter c =? 0)%nat)%bool = false). { destruct FR as [->| ->]; auto. rewrite andb_false_r. auto. } rewrite F. clear F.
  unfold ls_setup, w_setup. rewrite SE. cbn [set_chisq set_lambda f_setup]. rewrite SU in *. destruct (IP eq_refl) as [I P]. cbn [need_more c_iter c_stag Nat.ltb Nat.leb orb].
  set (o0 := set_dim _ _). unfold w_iterate, ls_iterate. set (oo := set_ochisq o0 (f_chisq o0)).
  destruct (wmin_sim put calc th n Inv Par Hput Hcalc Hext st oo w0 T MA I P) as (w1 & st1 & o1 & r1 & E1 & E2 & I1 & P1 & _ & _).
  match goal with |- context [mrqmin st ?x] => change (mrqmin st x) with (mrqmin st oo) end. rewrite E1, E2.
  destruct r1 as [[]|e| |]; cbn [omap obind]; do 6 eexists; (split; [reflexivity|split; [reflexivity|]]); try discriminate. intros _. split; auto. split; auto.
  pose proof (mrq_init_fresh st oo ltac:(cbn; lra) eq_refl) as MI. destruct (winit_sim put calc th Inv Par Hput Hcalc st oo w0 T I P) as (w2 & st2 & o2 & r2 & G1 & G2 & I2 & P2 & _).
  unfold wmin in E2. rewrite G1 in MI. rewrite G2 in E2. destruct r2 as [[]|e| |]; try discriminate. destruct MI as (ds & s & TD & LI & SS & FP & _ & LA & _).
  assert (ES : st2 = Some s) by apply LI. subst st2.
  assert (S0 : same_session o o2). { apply (LsStep.same_trans o oo o2); auto. repeat split. }
  apply (tried_from o o2); auto. eapply wmain_cal; [| |exact LI| |exact E2]; auto. destruct SS as (_ & _ & -> & _). exact T. rewrite LA. lra.
Qed.
Lemma next_step toler c s o w ds : c_iter c <> 0%nat -> f_theory o = th -> f_ma o = n -> Inv w -> Par w (f_p o) -> lsinv (Some s) o ds s -> 0 < f_alambda o -> need_more c = true ->
  exists b c' st' o' w' r, ls_step toler true c (Some s, o) = (b, c', (st', o'), r) /\ wstep put calc wsetup wlast toler true c (Some s, o, w) = (b, c', (st', o', w'), r) /\
    (r = Ok false -> Inv w' /\ Par w' (f_p o') /\ tried o o' w').
Proof.
  intros C T MA I P LI L NM. unfold wstep, ls_step, refine_step. destruct (Nat.eqb_spec (c_iter c) 0) as [|_]; [contradiction|]. cbn [negb andb]. rewrite NM.
  unfold w_iterate, ls_iterate. set (oo := set_ochisq o (f_chisq o)).
  destruct (wmin_sim put calc th n Inv Par Hput Hcalc Hext (Some s) oo w T MA I P) as (w1 & st1 & o1 & r1 & E1 & E2 & I1 & P1 & _ & _). rewrite E1, E2.
  destruct r1 as [[]|e| |]; cbn [omap obind]; do 6 eexists; (split; [reflexivity|split; [reflexivity|]]); try discriminate. intros _. split; auto. split; auto.
  apply (tried_from o oo); auto. { repeat split. }
  unfold wmin, winit in E2. destruct (Rlt_dec (f_alambda oo) 0) as [X|_]. { exfalso. unfold oo in X. cbn in X. lra. }
  eapply (wmain_cal s oo w (Some s)); [| | | |exact E2]; auto. eapply inv_session; eauto. repeat split.
Qed.
(** the end of a refinement does not return 0 *)
Lemma no_more toler c st o w : c_iter c <> 0%nat -> need_more c = false -> forall b c' x, wstep put calc wsetup wlast toler true c (st, o, w) <> (b, c', x, Ok false).
Proof.
  intros C NM b c' x. unfold wstep, refine_step. destruct (Nat.eqb_spec (c_iter c) 0) as [|_]; [contradiction|]. cbn [negb andb]. rewrite NM.
  destruct (w_finish put calc wlast (st, o, w)) as [y r]. destruct r; discriminate.
Qed.
End Sim.
