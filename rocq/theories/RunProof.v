(** The refinement on the program's memory follows the refinement of LsModel.v. *)
From Coq Require Import List Arith ZArith Reals Bool Lia Lra.
From Verif Require Import Base GaussModel GaussProof LsModel LsSpec LsProof LsStep RunModel.
Import ListNotations.
Local Open Scope R_scope.

Section Sim.
Context {W : Type}.
Variable put : W -> (nat -> R) -> W.
Variable calc : W -> W * outcome (list dsval).
Variable wsetup : W -> W * outcome unit.
Variable wlast : W -> W * outcome unit.
Variable th : (nat -> R) -> outcome (list dsval).
Variable n : nat.
Variable Inv : W -> Prop.
Variable Par : W -> (nat -> R) -> Prop.
Variable Fin : W -> (nat -> R) -> Prop.
Hypothesis Hput : forall w a, Inv w -> Inv (put w a) /\ Par (put w a) a.
Hypothesis Hcalc : forall w a, Inv w -> Par w a -> exists w', calc w = (w', th a) /\ Inv w' /\ Par w' a.
Hypothesis Hlast : forall w a ds, Inv w -> Par w a -> th a = Ok ds -> exists w', wlast w = (w', Ok tt) /\ Fin w' a.
Hypothesis Hth : forall p q, (forall l, (1 <= l <= n)%nat -> p l = q l) -> th p = th q.

Definition okp (o : fobj) : Prop := exists ds, th (f_p o) = Ok ds.
Definition same (o o' : fobj) : Prop := f_theory o' = f_theory o /\ f_ma o' = f_ma o /\ f_setup o' = f_setup o.

Lemma wcof_sim o w a al be : f_theory o = th -> Inv w ->
  exists w' o' al' be' r, mrqcof o a al be = (o', al', be', r) /\ wcof put calc o w a al be = (o', w', al', be', r) /\ Inv w' /\ Par w' a /\
    f_p o' = a /\ same o o' /\ f_alambda o' = f_alambda o /\ (forall x, r = Ok x -> exists ds, th a = Ok ds).
Proof.
  intros T I. destruct (Hput w a I) as [I1 P1]. destruct (Hcalc _ _ I1 P1) as (w' & C & I2 & P2).
  unfold wcof, mrqcof. destruct (mrq_zero (free_count (f_ia o) (f_ma o)) al be) as [al0 be0]. rewrite C. cbv zeta. change (f_theory (set_p o a)) with (f_theory o). rewrite T.
  destruct (th a) as [ds|e| |].
  - destruct (acc_all (f_ma (set_p o a)) (f_ia (set_p o a)) ds (al0, be0)) as [[[al1 be1] chisq] cums]. exists w'. do 4 eexists. split. reflexivity. split. reflexivity. repeat split; auto. intros; eauto.
  - exists w'. do 4 eexists. split. reflexivity. split. reflexivity. repeat split; auto. intros; discriminate.
  - exists w'. do 4 eexists. split. reflexivity. split. reflexivity. repeat split; auto. intros; discriminate.
  - exists w'. do 4 eexists. split. reflexivity. split. reflexivity. repeat split; auto. intros; discriminate.
Qed.

Lemma winit_sim st o w : f_theory o = th -> Inv w -> Par w (f_p o) ->
  exists w' st' o' r, mrq_init st o = (st', o', r) /\ winit put calc st o w = (st', o', w', r) /\ Inv w' /\ Par w' (f_p o') /\
    f_p o' = f_p o /\ same o o' /\ (r = Ok tt -> (f_alambda o < 0 \/ okp o) -> okp o').
Proof.
  intros T I P. unfold mrq_init, winit. destruct (Rlt_dec (f_alambda o) 0) as [L|L].
  - set (o1 := set_lambda o (/ 1000)). destruct (wcof_sim o1 w (f_p o) (f_alpha o1) (fun _ => 0) T I) as (w' & o' & al' & be' & r & E1 & E2 & I' & P' & FP & (S1 & S2 & S3) & _ & OK).
    rewrite E1, E2. destruct r as [c|e| |].
    + exists w'. do 3 eexists. split. reflexivity. split. reflexivity. cbn [set_chisq set_alpha f_p f_theory f_ma f_setup]. rewrite FP. repeat split; auto. intros _ _. unfold okp. cbn [set_chisq set_alpha f_p]. rewrite FP. eauto.
    + exists w'. do 3 eexists. split. reflexivity. split. reflexivity. cbn [set_chisq set_alpha f_p f_theory f_ma f_setup]. rewrite FP. repeat split; auto; try discriminate.
    + exists w'. do 3 eexists. split. reflexivity. split. reflexivity. cbn [set_chisq set_alpha f_p f_theory f_ma f_setup]. rewrite FP. repeat split; auto; try discriminate.
    + exists w'. do 3 eexists. split. reflexivity. split. reflexivity. cbn [set_chisq set_alpha f_p f_theory f_ma f_setup]. rewrite FP. repeat split; auto; try discriminate.
  - exists w. do 3 eexists. split. reflexivity. split. reflexivity. repeat split; auto. intros _ [H|H]; auto. contradiction.
Qed.

Lemma wmain_sim st o w : f_theory o = th -> f_ma o = n -> Inv w -> Par w (f_p o) ->
  exists w' st' o' r, mrq_main st o = (st', o', r) /\ wmain put calc st o w = (st', o', w', r) /\ Inv w' /\ Par w' (f_p o') /\ same o o' /\ (r = Ok tt -> okp o -> okp o').
Proof.
  intros T MA I P. unfold mrq_main, wmain. cbv zeta.
  destruct (negb _). { eexists. do 3 eexists. split. reflexivity. split. reflexivity. split. exact I. split. exact P. split. repeat split. discriminate. }
  destruct (gaussj _ _ _ _) as [[cv oneda]|e| |].
  2:{ eexists. do 3 eexists. split. reflexivity. split. reflexivity. split. exact I. split. exact P. split. repeat split. discriminate. }
  2:{ eexists. do 3 eexists. split. reflexivity. split. reflexivity. split. exact I. split. exact P. split. repeat split. discriminate. }
  2:{ eexists. do 3 eexists. split. reflexivity. split. reflexivity. split. exact I. split. exact P. split. repeat split. discriminate. }
  destruct (Req_EM_T (f_alambda o) 0) as [L|L].
  { destruct (Hput w (f_p o) I) as [I1 P1]. exists (put w (f_p o)). do 3 eexists. split. reflexivity. split. reflexivity. split; auto. split; auto. split. repeat split. intros _ H. exact H. }
  destruct (_ <? _)%nat. { eexists. do 3 eexists. split. reflexivity. split. reflexivity. split. exact I. split. exact P. split. repeat split. discriminate. }
  set (da := copy_vec _ _ _). set (atry := trial _ _ _ _ _).
  destruct (wcof_sim (set_covar o cv) w atry (f_covar (set_covar o cv)) da T I) as (w' & o' & al' & be' & r & E1 & E2 & I' & P' & FP & (S1 & S2 & S3) & LA & OK).
  rewrite E1, E2. cbn [set_covar f_theory f_ma f_setup] in S1, S2, S3. destruct r as [c|e| |].
  - destruct (Rlt_dec c _) as [Hc|Hc].
    + set (q := copy_vec (f_ma o) atry (f_p o)). destruct (Hput w' q I') as [I2 P2]. exists (put w' q). do 3 eexists. split. reflexivity. split. reflexivity. split; auto. split. exact P2. split.
      repeat split; auto. intros _ _. unfold okp. cbn [set_p f_p]. destruct (OK _ eq_refl) as (ds & E). exists ds. rewrite <- E. apply Hth. intros l Hl. unfold q. rewrite copy_vec_val. unfold GaussProof.inr. rewrite MA.
      destruct (Nat.leb_spec 1 l); [|lia]. destruct (Nat.leb_spec l n); [|lia]. reflexivity.
    + destruct (Hput w' (f_p o) I') as [I2 P2]. exists (put w' (f_p o)). do 3 eexists. split. reflexivity. split. reflexivity. split; auto. split. exact P2. split. repeat split; auto. intros _ H. exact H.
  - exists w'. do 3 eexists. split. reflexivity. split. reflexivity. split; auto. split. cbn [set_covar f_p]. rewrite FP. exact P'. split. repeat split; auto. discriminate.
  - exists w'. do 3 eexists. split. reflexivity. split. reflexivity. split; auto. split. cbn [set_covar f_p]. rewrite FP. exact P'. split. repeat split; auto. discriminate.
  - exists w'. do 3 eexists. split. reflexivity. split. reflexivity. split; auto. split. cbn [set_covar f_p]. rewrite FP. exact P'. split. repeat split; auto. discriminate.
Qed.

Lemma same_trans a b c : same a b -> same b c -> same a c.
Proof. intros (A & B & C) (D & E & F). repeat split; congruence. Qed.
Lemma wmin_sim st o w : f_theory o = th -> f_ma o = n -> Inv w -> Par w (f_p o) ->
  exists w' st' o' r, mrqmin st o = (st', o', r) /\ wmin put calc st o w = (st', o', w', r) /\ Inv w' /\ Par w' (f_p o') /\ same o o' /\ (r = Ok tt -> (f_alambda o < 0 \/ okp o) -> okp o').
Proof.
  intros T MA I P. unfold mrqmin, wmin. destruct (winit_sim st o w T I P) as (w1 & st1 & o1 & r1 & E1 & E2 & I1 & P1 & _ & S1 & OK1). rewrite E1, E2. pose proof S1 as (A & B & _).
  destruct r1 as [[]|e| |].
  - destruct st1 as [s1|].
    + destruct (wmain_sim s1 o1 w1) as (w2 & st2 & o2 & r2 & F1 & F2 & I2 & P2 & S2 & OK2); try congruence; auto. exists w2, st2, o2, r2. split; auto. split; auto. split; auto. split; auto. split. eapply same_trans; eauto. auto.
    + exists w1. do 3 eexists. split. reflexivity. split. reflexivity. repeat (split; auto); try discriminate; try (intros; discriminate); apply S1.
  - exists w1. do 3 eexists. split. reflexivity. split. reflexivity. repeat (split; auto); try discriminate; try (intros; discriminate); apply S1.
  - exists w1. do 3 eexists. split. reflexivity. split. reflexivity. repeat (split; auto); try discriminate; try (intros; discriminate); apply S1.
  - exists w1. do 3 eexists. split. reflexivity. split. reflexivity. repeat (split; auto); try discriminate; try (intros; discriminate); apply S1.
Qed.

Lemma iterate_sim toler st o w : f_theory o = th -> f_ma o = n -> Inv w -> Par w (f_p o) ->
  exists w' st' o' r, ls_iterate toler (st, o) = ((st', o'), r) /\ w_iterate put calc toler (st, o, w) = ((st', o', w'), r) /\ Inv w' /\ Par w' (f_p o') /\ same o o' /\
    (forall b, r = Ok b -> (f_alambda o < 0 \/ okp o) -> okp o').
Proof.
  intros T MA I P. unfold ls_iterate, w_iterate. destruct (wmin_sim st (set_ochisq o (f_chisq o)) w T MA I P) as (w1 & st1 & o1 & r1 & E1 & E2 & I1 & P1 & S1 & OK1). rewrite E1, E2.
  exists w1. do 3 eexists. split. reflexivity. split. reflexivity. split; auto. split; auto. split; auto. intros b E. destruct r1 as [[]| | |]; try discriminate. apply OK1. reflexivity.
Qed.
Lemma finish_sim st o w : f_theory o = th -> f_ma o = n -> Inv w -> Par w (f_p o) -> okp o ->
  exists w' st' o' r, ls_finish (st, o) = ((st', o'), r) /\ w_finish put calc wlast (st, o, w) = ((st', o', w'), r) /\ same o o' /\ (r = Ok tt -> Fin w' (f_p o')).
Proof.
  intros T MA I P OK. unfold ls_finish, w_finish. destruct (wmin_sim st (set_lambda o 0) w T MA I P) as (w1 & st1 & o1 & r1 & E1 & E2 & I1 & P1 & S1 & OK1). rewrite E1, E2. pose proof S1 as (A & _). cbn [set_lambda f_theory] in A.
  destruct r1 as [[]|e| |].
  - destruct (OK1 eq_refl (or_intror OK)) as (ds & E). destruct (Hlast w1 _ ds I1 P1 E) as (w2 & L & F). rewrite L. exists w2. do 3 eexists. split. reflexivity. split. rewrite A, T, E. reflexivity. split; auto.
  - exists w1. do 3 eexists. split. reflexivity. split. reflexivity. repeat (split; auto); try discriminate; apply S1.
  - exists w1. do 3 eexists. split. reflexivity. split. reflexivity. repeat (split; auto); try discriminate; apply S1.
  - exists w1. do 3 eexists. split. reflexivity. split. reflexivity. repeat (split; auto); try discriminate; apply S1.
Qed.

Lemma loop_sim toler : forall fuel c st o w, c_iter c <> 0%nat -> f_theory o = th -> f_ma o = n -> Inv w -> Par w (f_p o) -> okp o ->
  exists w' b c' st' o' r, ls_refine toler fuel true c (st, o) = (b, c', (st', o'), r) /\ wrefine put calc wsetup wlast toler fuel true c (st, o, w) = (b, c', (st', o', w'), r) /\ (r = Ok tt -> Fin w' (f_p o')).
Proof.
  induction fuel as [|fuel IH]; intros c st o w C T MA I P OK; unfold ls_refine, wrefine in *; cbn [refine].
  { exists w. do 5 eexists. split. reflexivity. split. reflexivity. discriminate. }
  unfold refine_step. destruct (Nat.eqb_spec (c_iter c) 0) as [|_]; [contradiction|]. cbn [negb andb].
  destruct (need_more c) eqn:NM.
  - destruct (iterate_sim toler st o w T MA I P) as (w1 & st1 & o1 & r1 & E1 & E2 & I1 & P1 & (S1 & S2 & S3) & OK1). rewrite E1, E2. destruct r1 as [b|e| |].
    + apply IH; auto; try congruence. destruct c; cbn; lia. eapply OK1; eauto.
    + exists w1. do 5 eexists. split. reflexivity. split. reflexivity. discriminate.
    + exists w1. do 5 eexists. split. reflexivity. split. reflexivity. discriminate.
    + exists w1. do 5 eexists. split. reflexivity. split. reflexivity. discriminate.
  - destruct (finish_sim st o w T MA I P OK) as (w1 & st1 & o1 & r1 & E1 & E2 & _ & F1). rewrite E1, E2. destruct r1 as [[]|e| |].
    + exists w1. do 5 eexists. split. reflexivity. split. reflexivity. auto.
    + exists w1. do 5 eexists. split. reflexivity. split. reflexivity. discriminate.
    + exists w1. do 5 eexists. split. reflexivity. split. reflexivity. discriminate.
    + exists w1. do 5 eexists. split. reflexivity. split. reflexivity. discriminate.
Qed.

(** from the start *)
Theorem refine_sim toler fuel running c st o w : fresh running c -> f_theory o = th -> f_ma o = n ->
  (exists w', wsetup w = (w', f_setup o) /\ (f_setup o = Ok tt -> Inv w' /\ Par w' (f_p o))) ->
  exists w' b c' st' o' r, ls_refine toler fuel running c (st, o) = (b, c', (st', o'), r) /\ wrefine put calc wsetup wlast toler fuel running c (st, o, w) = (b, c', (st', o', w'), r) /\
    (r = Ok tt -> Fin w' (f_p o')).
Proof.
  intros FR T MA (w0 & SE & IP). destruct fuel as [|fuel]; unfold ls_refine, wrefine; cbn [refine].
  { exists w. do 5 eexists. split. reflexivity. split. reflexivity. discriminate. }
  unfold refine_step. assert (F : (running && negb (c_iter c =? 0)%nat)%bool = false). { destruct FR as [->| ->]; auto. rewrite andb_false_r. auto. } rewrite F. clear F.
  unfold ls_setup, w_setup. rewrite SE. cbn [set_chisq set_lambda f_setup]. destruct (f_setup o) as [[]|e| |].
  2:{ exists w0. do 5 eexists. split. reflexivity. split. reflexivity. discriminate. }
  2:{ exists w0. do 5 eexists. split. reflexivity. split. reflexivity. discriminate. }
  2:{ exists w0. do 5 eexists. split. reflexivity. split. reflexivity. discriminate. }
  destruct (IP eq_refl) as [I P]. cbn [need_more c_iter c_stag Nat.ltb Nat.leb orb].
  set (o0 := set_dim _ _). change (f_theory o) with (f_theory o0) in T. change (f_ma o) with (f_ma o0) in MA. change (f_p o) with (f_p o0) in P.
  destruct (iterate_sim toler st o0 w0 T MA I P) as (w1 & st1 & o1 & r1 & E1 & E2 & I1 & P1 & (S1 & S2 & S3) & OK1). change (ls_iterate toler (st, o0) = ((st1, o1), r1)) in E1. 
  match goal with |- context [ls_iterate toler ?x] => change (ls_iterate toler x) with (ls_iterate toler (st, o0)) end. rewrite E1.
  match goal with |- context [w_iterate put calc toler ?x] => change (w_iterate put calc toler x) with (w_iterate put calc toler (st, o0, w0)) end. rewrite E2.
  destruct r1 as [b|e| |].
  - apply (loop_sim toler fuel (bump (mkC 0 0) b)); auto; try congruence. discriminate. eapply OK1; eauto. left. cbn. lra.
  - exists w1. do 5 eexists. split. reflexivity. split. reflexivity. discriminate.
  - exists w1. do 5 eexists. split. reflexivity. split. reflexivity. discriminate.
  - exists w1. do 5 eexists. split. reflexivity. split. reflexivity. discriminate.
Qed.
End Sim.
