(** One phase with two atoms, its scale factor a parameter. *)
From Coq Require Import List ZArith Ascii Bool Lia Reals Lra FunctionalExtensionality.
From Verif Require Import Base RSum ParamModel ParamProof ParserModel ParserSpec MatrixModel ParserDeriv MathModel MathSpec MathProof ConModel ConSpec ConProof MetricModel PdfModel PdfSpec PdfProof PdfEx PdfFinal LayoutModel LayoutSpec LsModel LsSpec LinSpec GaussSpec BondEx TheoryModel TheorySpec ScaleSpec ScaleLin.
Import ListNotations.
Local Open Scope R_scope.

Definition row2 (v : rvar) : nat :=
  match v with PV _ f => phase_no f | AV _ ia f => (11 + 10 * ia + atom_no_ f)%nat | SV _ f => (31 + set_no f)%nat end.
Definition cells : list R := [10; 10; 10; 90; 90; 90; 0; 0; 1; 0; 1;
  0; 0; 0; 1 / 2; 1 / 2; 1 / 2; 0; 0; 0; 1;
  1 / 2; 1 / 2; 1 / 2; 1 / 2; 1 / 2; 1 / 2; 0; 0; 0; 0;
  1; 0; 0].
Definition mem2 (a : nat) : R := nth a cells 0.
Definition set2 (y : nat -> R) : tset := mkTset xdata [Some (none, none)] y (fun _ => 1).
(** p[1] = 3 is the scale factor *)
Definition h2 : list (uop R) := [UPar (PSet 1 3); UCon 8 (KPar KIdent 1)].
Definition st2 : cstate R := crun (Rnum Rlit) Rbuiltins (cinit mem2) (map to_cop h2).

Lemma row2_apart : apart row2 (atoms_in [half_empty]) 1.
Proof.
  change (atoms_in [half_empty]) with [2%nat].
  intros v w V W E. destruct v as [ip f|ip ia f|k f], w as [ip' f'|ip' ia' f'|k' f']; cbn [exists_var row2 length nth] in *.
  - destruct V as [V1 V2], W as [W1 W2]. assert (ip = ip') by lia. subst. f_equal. destruct f, f'; simpl in *; try lia; auto; f_equal; lia.
  - destruct V as [V1 V2]. destruct f; simpl in *; lia.
  - destruct V as [V1 V2]. destruct f; simpl in *; lia.
  - destruct W as [W1 W2]. destruct f'; simpl in *; lia.
  - destruct V as (V1 & V2 & V3), W as (W1 & W2 & W3). assert (ip = 0%nat) by lia. assert (ip' = 0%nat) by lia. subst. cbn in V2, W2.
    assert (A : (atom_no_ f < 10)%nat) by (destruct f; simpl in *; lia). assert (A' : (atom_no_ f' < 10)%nat) by (destruct f'; simpl in *; lia).
    assert (ia = ia') by lia. subst. f_equal. destruct f, f'; simpl in *; try lia; auto; f_equal; lia.
  - destruct V as (V1 & V2 & V3). assert (ip = 0%nat) by lia. subst. cbn in V2. destruct f; simpl in *; lia.
  - destruct W as [W1 W2]. destruct f'; simpl in *; lia.
  - destruct W as (W1 & W2 & W3). assert (ip' = 0%nat) by lia. subst. cbn in W2. destruct f'; simpl in *; lia.
  - assert (k = k') by lia. subst. f_equal. destruct f, f'; simpl in *; auto; lia.
Qed.
Lemma blocks2 : blocks_ok [half_empty].
Proof. intros p i [<-|[]] _. simpl. lia. Qed.
Lemma st2_is : st2 = mkCst (mkPtab [3] [true] [1%Z]) [mkCon 8 [] 1 IDENT true] mx_empty mem2.
Proof. reflexivity. Qed.
Lemma scales2 : scales_only row2 1 st2 (ucons h2).
Proof.
  split. { cbn. repeat constructor. intros []. } intros a c [E|[]]. inversion E; subst. split. exists 0%nat. split; [lia|reflexivity].
  split. exact I. split. intros n [<-|[]]. lia. exists 0, (fun _ => 1). intros p. rewrite st2_is. split. 
  - cbn. auto.
  - cbn. f_equal. ring.
Qed.
Lemma wrap2 : forall a, wrap_mem row2 [half_empty] mem2 a = mem2 a.
Proof.
  assert (W : forall l m, (forall ip ia i icc, In (ip, ia, i, icc) l -> let a := row2 (AV ip ia (FPos i)) in fmod (mem2 a) (IZR icc) = mem2 a) -> (forall a, m a = mem2 a) ->
    forall a, fold_left (fun mem x => let '(ip, ia, i, icc) := x in let a := row2 (AV ip ia (FPos i)) in mem_set mem a (fmod (mem a) (IZR icc))) l m a = mem2 a).
  { induction l as [|[[[ip ia] i] icc] l IH]; intros m H E a. apply E. cbn [fold_left]. apply IH. intros; apply H; right; auto. intros b. unfold mem_set. destruct (Nat.eqb_spec b (row2 (AV ip ia (FPos i)))) as [->|N]; auto.
    rewrite E. apply H. left; auto. }
  apply W; auto. intros ip ia i icc I. cbn in I. destruct I as [E|[E|[E|[E|[E|[E|[]]]]]]]; inversion E; subst; cbn - [fmod IZR Rdiv]; apply fmod_small; lra.
Qed.
Lemma phases2 : phases_in row2 [half_empty] mem2 = [half_empty].
Proof.
  unfold phases_in. assert (E : wrap_mem row2 [half_empty] mem2 = mem2) by (apply functional_extensionality; apply wrap2). rewrite E.
  unfold load_phases. cbn [length seq combine map]. f_equal. unfold load_phase, half_empty, cub. cbn [cp_atoms length seq combine map load_atom cp_a0 cp_win cp_icc cp_stepcut cp_rcut]. f_equal.
  - apply functional_extensionality. intros [|[|[|k]]]; reflexivity.
  - apply functional_extensionality. intros [|[|[|k]]]; reflexivity.
  - unfold xatom. f_equal; [f_equal|f_equal; f_equal]; apply functional_extensionality; intros [|[|[|[|[|[|k]]]]]]; reflexivity.
Qed.
Lemma data2 y : data_in row2 mem2 0 (set2 y) = xdata. Proof. reflexivity. Qed.
Lemma ready2 y : ready row2 [half_empty] [set2 y] (cmem st2).
Proof.
  rewrite st2_is. cbn [cmem]. split. { rewrite phases2. intros p [<-|[]]. apply cub_lat. }
  intros [|[|is]] s E; try discriminate. inversion E; subst. rewrite data2. split. apply xgrid. split. apply xoff. split. apply xfilter. split. reflexivity.
  intros [|[|ip]] gi gj p Es Ep; try discriminate. rewrite phases2 in Ep. inversion Ep; subst.
  split. apply cub_cell. split. apply cub_tiny. split. intros; cbn; lia.
  split. unfold occ_sum. cbn. lra. split. unfold mean_sf, occ_sum. cbn. lra. split. cbn. lra. split; [|cbn; lra].
  intros i j h Hi Hj. cbn in Hi, Hj. destruct i as [|[|i]], j as [|[|j]]; try lia; apply cub_msd_nn; lra.
Qed.
Lemma lonely_not0 : - 12 * PI * density half_empty * counted_share xdata half_empty none none <> 0.
Proof.
  assert (M : mean_sf xdata half_empty = 1). { unfold mean_sf, occ_sum. cbn. lra. }
  assert (W : forall i, (i < 2)%nat -> weight_no xdata half_empty i = 1). { intros i H. unfold weight_no. rewrite M. destruct i as [|[|i]]; try lia; cbn; lra. }
  assert (C : counted_share xdata half_empty none none = 1).
  { unfold counted_share. change (natoms half_empty) with 2%nat. cbn [rsum counted none negb andb orb]. rewrite !W by lia. lra. }
  rewrite C. assert (DE : 0 < density half_empty).
  { unfold density, half_empty. rewrite cub_det. unfold occ_sum. cbn. apply Rdiv_lt_0_compat. lra. rewrite Rmult_1_l. apply sqrt_lt_R0. lra. }
  pose proof PI_RGT_0. nra.
Qed.

(** the scale factor matters at r = 3 *)
Lemma matters2 y o : exists f0, forall fuel, (f0 <= fuel)%nat -> forall ds0, let O := theory_object row2 (Rnum Rlit) Rbuiltins fuel [half_empty] [set2 y] 34 st2 o in
  f_theory O (pars_of st2) = Ok ds0 -> ~ dependent O ds0.
Proof.
  destruct (scale_session row2 [half_empty] [set2 y] mem2 h2 34 o row2_apart blocks2 scales2 (ready2 y) eq_refl) as (f0 & X).
  destruct (cub_lat [xatom 0 (1 / 2) 1; xatom (1 / 2) (1 / 2) 0]) as (de & LT). destruct (lonely_value none none de LT) as (f1 & t1 & D1 & E1).
  exists (Nat.max f0 f1). intros fuel Hf ds0 O E0. destruct (X fuel ltac:(lia)) as (ds1 & _ & [L0 L1] & DD & P). change (crun (Rnum Rlit) Rbuiltins (cinit mem2) (map to_cop h2)) with st2 in *. fold O in L0, L1, P.
  assert (FP : f_p O = pars_of st2) by (unfold O, theory_object; destruct (theory_setup _ _ _ _ _ _ _); reflexivity).
  assert (FI : f_ia O = free_of st2) by (unfold O, theory_object; destruct (theory_setup _ _ _ _ _ _ _); reflexivity).
  assert (FM : f_ma O = 1%nat) by (unfold O, theory_object; destruct (theory_setup _ _ _ _ _ _ _); reflexivity).
  rewrite FP in L0. rewrite L0 in E0. inversion E0; subst ds1. clear E0.
  destruct (P 0%nat (set2 y) eq_refl) as (lo & hi & F & PP & PS). destruct (PP 0%nat ltac:(cbn; lia)) as (des & t & LL & DT & TT). clear PP.
  change (cmem st2) with mem2 in LL, DT. rewrite phases2 in LL, DT. rewrite data2 in DT.
  inversion LL as [|? de' ? ? Q1 Q2]; subst. inversion Q2; subst. change half_empty with (cub [xatom 0 (1 / 2) 1; xatom (1 / 2) (1 / 2) 0]) in Q1. rewrite LT in Q1. inversion Q1; subst de'. clear Q1 Q2 LL.
  change (entries (combine (rescale (unit_at 0) 0 [half_empty]) [de]) (ts_sel (set2 y))) with [Some (mkEnt half_empty de none none)] in DT.
  rewrite (D1 fuel ltac:(lia)) in DT. inversion DT as [[A1 A2 A3]]. subst t1. assert (lo = 2)%nat by lia. assert (hi = 3)%nat by lia. subst lo hi. clear DT A1 A2.
  pose proof (TT 2%nat ltac:(lia)) as T2. unfold el in E1. change (Z.to_nat 2) with 2%nat in E1. rewrite T2 in E1. inversion E1 as [F2]. clear E1 T2 TT.
  destruct (PS _ _ L0) as (d & Ed & Dlo & Dhi & Dp).
  set (q := fun l : nat => if (l =? 1)%nat then 0 else pars_of st2 l).
  assert (AL : allowed O q). { intros l Nf. rewrite FP. unfold q. destruct (Nat.eqb_spec l 1) as [->|]; auto. exfalso. apply Nf. unfold free. rewrite FM, FI. split. lia. reflexivity. }
  destruct (L1 q AL) as (ds & Lq & MV). destruct (PS _ _ Lq) as (d' & Ed' & _ & _ & Dp').
  destruct ds0 as [|d0 ds0]; [discriminate|]. inversion Ed; subst d0. inversion MV as [|? d0 ? ds' M1 M2]; subst. inversion Ed'; subst d0. clear MV M2 Ed'.
  assert (I2 : In 2%nat (points d)) by (unfold points; rewrite Dlo, Dhi; cbn; auto).
  destruct M1 as (_ & _ & M). destruct (M 2%nat I2) as (_ & _ & _ & M3). rewrite (Dp' 2%nat), (Dp 2%nat) in M3 by lia.
  unfold along in M3. rewrite FI, FM, FP in M3.
  intros (x & (l & [Hl _] & Xl) & Z). rewrite FM in Hl. assert (l = 1)%nat by lia. subst l.
  inversion DD as [|? ? ? ? [_ W1] _]; subst. specialize (Z d 2%nat (or_introl eq_refl) I2). rewrite W1 in Z. cbn [set2 ts_w] in Z. specialize (Z R1_neq_R0). rewrite FI, FM in Z.
  unfold sum_free in *. unfold scale_of in M3. rewrite st2_is in *. cbn - [dpar Rmult Rplus IZR] in M3, Z.
  apply lonely_not0. rewrite <- F2. nra.
Qed.
Lemma scale2 p : scale_of row2 st2 (ucons h2) p 0 = p 1%nat.
Proof. rewrite st2_is. reflexivity. Qed.
Lemma weights2 y s i : In s [set2 y] -> 0 <= ts_w s i.
Proof. intros [<-|[]]. cbn. lra. Qed.
