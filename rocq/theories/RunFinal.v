(** The refinement on the program's memory: same course as the solver's view, and
    variables and PDFs that belong to the parameters at the end. *)
From Coq Require Import List Arith ZArith Reals Bool Lia Lra.
From Verif Require Import Base ParamModel ParamProof ParserModel ParserSpec ParserProof Util MatrixModel MatrixProof ConModel ConSpec ConProof MathSpec MathModel MetricModel PdfModel PdfFinal LayoutModel LayoutSpec DerivModel LsModel LsSpec BondNear BondEx TheoryModel TheorySpec TheoryMem RunModel RunSpec RunProof.
Import ListNotations.

Section Defined.
Context {T : Type} (N : numops T) (builtins : list (builtin T)).
Lemma ev_defined (f g : Z -> option T) e : (forall n, f n = None -> g n = None) -> ev N builtins f e = None -> ev N builtins g e = None.
Proof.
  intros H. induction e as [m x|n|a IH|c a IHa b IHb|fn a IH]; cbn [ev]; auto.
  - destruct (ev N builtins f a); [discriminate|]. intros _. rewrite IH; auto.
  - destruct (ev N builtins f a) as [x|]. 2:{ intros _. rewrite IHa; auto. } destruct (ev N builtins f b) as [y|].
    2:{ intros _. rewrite IHb by auto. destruct (ev N builtins g a); auto. }
    intros E. destruct (ev N builtins g a); auto. destruct (ev N builtins g b); auto.
    repeat match goal with |- context[if ?b then _ else _] => destruct b end; try discriminate E; auto.
  - destruct (find_builtin builtins fn); auto. destruct (ev N builtins f a); [discriminate|]. intros _. rewrite IH; auto.
Qed.
Lemma con_defined (f g : Z -> option T) c : (forall n, f n = None -> g n = None) -> con_val N builtins f c = None -> con_val N builtins g c = None.
Proof. intros H. destruct c as [l e|k n]; cbn [con_val]. apply ev_defined; auto. destruct (f n) eqn:E; [discriminate|]. rewrite (H n E). auto. Qed.
Lemma env_defined (t t' : ptab T) n : same_pars t t' -> env_of t n = None -> env_of t' n = None.
Proof.
  intros (A & B & C). unfold env_of, getpar, parfind. rewrite A. destruct (find_pos (u32 n) (pid t)) as [k|]; auto.
  destruct (nth_error (pval t) k) eqn:E; [discriminate|]. apply nth_error_None in E. assert (E' : nth_error (pval t') k = None) by (apply nth_error_None; lia). rewrite E'. auto.
Qed.
Lemma same_pars_sym (t t' : ptab T) : same_pars t t' -> same_pars t' t. Proof. intros (A & B & C). repeat split; auto. Qed.
End Defined.

Local Open Scope R_scope.
Lemma solvable_same N builtins (s s' : cstate R) cs : same_pars (ctab s) (ctab s') -> solvable N builtins s cs -> solvable N builtins s' cs.
Proof. intros SP S a c I E. apply (S a c I). revert E. apply con_defined. intros n. apply env_defined. apply same_pars_sym; auto. Qed.
Lemma with_same (s : cstate R) p : same_pars (ctab s) (ctab (with_pars s p)).
Proof. repeat split. cbn. rewrite map_length, seq_length. auto. Qed.

(** parameters that the table holds already *)
Lemma with_own (s : cstate R) p : (forall l, (1 <= l <= length (pval (ctab s)))%nat -> pars_of s l = p l) -> with_pars s p = s.
Proof.
  destruct s as [[v f i] c d m]. unfold with_pars, pars_of. cbn [ctab pval pfree pid cons_ cdvdp cmem]. intros H. do 2 f_equal.
  apply nth_ext with (d := 0) (d' := 0). rewrite map_length, seq_length. auto. intros k Hk. rewrite map_length, seq_length in Hk.
  rewrite (nth_indep _ 0 (p 0%nat)) by (rewrite map_length, seq_length; auto). rewrite map_nth, seq_nth by auto. rewrite <- H by lia. f_equal. lia.
Qed.
Lemma pars_with (s : cstate R) p l : (1 <= l <= length (pval (ctab s)))%nat -> pars_of (with_pars s p) l = p l.
Proof.
  intros H. unfold pars_of, with_pars. cbn [ctab pval]. rewrite (nth_indep _ 0 (p 0%nat)) by (rewrite map_length, seq_length; lia). rewrite map_nth, seq_nth by lia. f_equal. lia.
Qed.

(** coordinates in memory *)
Section Coord.
Variable addr : rvar -> nat.
Variable ph : list cphase.
Variable nset : nat.
Hypothesis AP : apart addr (atoms_in ph) nset.
Hypothesis BO : blocks_ok ph.
Lemma wloop_there x : In x (wrap_list ph) -> forall l mem, incl l (wrap_list ph) -> In x l -> wloop addr l mem (waddr addr x) = fmod (mem (waddr addr x)) (wicc x).
Proof.
  intros Ix. induction l as [|y l IH]; intros mem I H. destruct H. unfold wloop. cbn [fold_left]. fold (wloop addr l (mem_set mem (waddr addr y) (fmod (mem (waddr addr y)) (wicc y)))).
  assert (Iy : In y (wrap_list ph)) by (apply I; left; auto). assert (Il : incl l (wrap_list ph)) by (intros z Z; apply I; right; auto).
  destruct (Nat.eq_dec (waddr addr y) (waddr addr x)) as [E|E].
  - rewrite <- E at 1. assert (Q : wicc y = wicc x) by (apply (wrap_inj addr ph nset AP); auto).
    destruct (wloop_at addr ph nset AP BO (waddr addr y) l (mem_set mem (waddr addr y) (fmod (mem (waddr addr y)) (wicc y))) Il) as [V|(z & Iz & Az & V)]; rewrite V; unfold mem_set; rewrite Nat.eqb_refl, Q.
    rewrite E. auto. assert (Q2 : wicc z = wicc x). { apply (wrap_inj addr ph nset AP); auto. congruence. } rewrite Q2, E. apply fmod_idem. apply (wrap_pos ph BO); auto.
  - rewrite IH; auto. unfold mem_set. destruct (Nat.eqb_spec (waddr addr x) (waddr addr y)); auto. congruence. destruct H; auto. congruence.
Qed.
Lemma coord_in a icc : coordinate addr ph a icc -> exists x, In x (wrap_list ph) /\ waddr addr x = a /\ wicc x = IZR icc.
Proof.
  intros (ip & p & ia & k & E & L & K & -> & ->). exists (ip, ia, k, cp_icc p k). split; auto. unfold wrap_list. apply in_flat_map. exists (ip, p). split.
  - assert (X : (ip < length ph)%nat) by (apply nth_error_Some; congruence). assert (Q : nth_error (combine (seq 0 (length ph)) ph) ip = Some (ip, p)).
    { rewrite (nth_error_nth' _ (0%nat, p)) by (rewrite combine_length, seq_length; lia). rewrite combine_nth by (rewrite seq_length; auto). rewrite seq_nth by auto. rewrite (nth_error_nth _ _ _ E). reflexivity. }
    eapply nth_error_In; eauto.
  - apply in_flat_map. exists ia. split. apply in_seq. lia. apply in_map_iff. exists k. split; auto. destruct k as [|[|[|k]]]; cbn; auto; lia.
Qed.
Lemma in_coord x : In x (wrap_list ph) -> let '(_, _, _, icc) := x in coordinate addr ph (waddr addr x) icc.
Proof. intros I. pose proof (wrap_in ph x I) as H. destruct x as [[[ip ia] k] icc]. destruct H as (p & E & L & K & ->). exists ip, p, ia, k. repeat split; auto. Qed.
Lemma wrap_stands mem a : stands_for addr ph a (mem a) (wrap_mem addr ph mem a).
Proof.
  rewrite wrap_loop. split.
  - intros H. destruct (wloop_at addr ph nset AP BO a (wrap_list ph) mem (incl_refl _)) as [E|(x & Ix & Ax & E)]; auto. pose proof (in_coord x Ix) as C. destruct x as [[[ip ia] k] icc]. rewrite Ax in C. destruct (H _ C).
  - intros icc C. destruct (coord_in a icc C) as (x & Ix & <- & Wx). rewrite (wloop_there x Ix _ _ (incl_refl _) Ix), Wx. apply fmod_ok. rewrite <- Wx. apply (wrap_pos ph BO); auto.
Qed.
End Coord.

(** with derivatives or without *)
Section Plain.
Variable addr : rvar -> nat.
Context (N : numops R) (builtins : list (builtin R)).
Lemma fold_plain fuel ly vref dvdp mem phd : forall (l : list (nat * tset)) acc acc' rs, acc' = map (fun r => (r_lo r, r_hi r, r_pdf r)) acc ->
  ofold (fun acc (x : nat * tset) => let (is, s) := x in omap (fun r => acc ++ [r]) (set_result fuel ly vref dvdp is (load_set addr mem is (ts_data s)) (entries phd (ts_sel s)))) l acc = Ok rs ->
  ofold (fun acc (x : nat * tset) => let (is, s) := x in omap (fun r => acc ++ [r]) (determine fuel (load_set addr mem is (ts_data s)) (entries phd (ts_sel s)))) l acc' = Ok (map (fun r => (r_lo r, r_hi r, r_pdf r)) rs).
Proof.
  induction l as [|[is s] l IH]; intros acc acc' rs E H; cbn [ofold] in *. inversion H; subst; auto.
  apply obind_ok in H as (a1 & A1 & H). apply omap_ok in A1 as (r & R1 & ->). unfold set_result in R1. apply obind_ok in R1 as ([[lo hi] t] & D & R1). rewrite D. cbn [omap obind].
  apply obind_ok in R1 as (A & _ & R1). apply omap_ok in R1 as (b & _ & ->). eapply IH; [|exact H]. rewrite map_app, E. reflexivity.
Qed.
Lemma plain_of_diff fuel ly ph sets st st1 rs : theory_diff addr N builtins fuel ly ph sets st = (st1, Ok rs) ->
  theory_plain addr N builtins fuel ph sets st = (st1, Ok (map (fun r => (r_lo r, r_hi r, r_pdf r)) rs)).
Proof.
  unfold theory_diff, theory_plain. destruct (fill_variables N builtins st) as [s r]. destruct r; intros H; inversion H; subst. f_equal. rename H2 into E. cbv zeta in *.
  apply obind_ok in E as (phd & P & E). rewrite P. cbn [obind]. apply (fold_plain fuel ly _ _ _ phd _ [] [] rs eq_refl E).
Qed.
Lemma fold_pdf fuel mem phd : forall (l : list (nat * tset)) acc rs,
  ofold (fun acc (x : nat * tset) => let (is, s) := x in omap (fun r => acc ++ [r]) (determine fuel (load_set addr mem is (ts_data s)) (entries phd (ts_sel s)))) l acc = Ok rs ->
  exists rs', rs = acc ++ rs' /\ Forall2 (fun x r => determine fuel (load_set addr mem (fst x) (ts_data (snd x))) (entries phd (ts_sel (snd x))) = Ok r) l rs'.
Proof.
  induction l as [|[is s] l IH]; intros acc rs H; cbn [ofold] in H. inversion H; subst. exists []. rewrite app_nil_r. auto.
  apply obind_ok in H as (a1 & A1 & H). apply omap_ok in A1 as (r & R1 & ->). destruct (IH _ _ H) as (rs' & -> & F). exists (r :: rs'). rewrite <- app_assoc. auto.
Qed.
Lemma fold_lat : forall ps acc phd, ofold (fun acc p => obind (phase_lattice p) (fun de => Ok (acc ++ [(p, de)]))) ps acc = Ok phd ->
  exists des, phd = acc ++ combine ps des /\ Forall2 (fun q de => phase_lattice q = Ok de) ps des.
Proof.
  induction ps as [|p ps IH]; intros acc phd H; cbn [ofold] in H. inversion H; subst. exists []. rewrite app_nil_r. auto.
  apply obind_ok in H as (a1 & A1 & H). apply obind_ok in A1 as (de & D & A1). inversion A1; subst. destruct (IH _ _ H) as (des & -> & F). exists (de :: des). cbn [combine]. rewrite <- app_assoc. auto.
Qed.
End Plain.

Section Run.
Variable addr : rvar -> nat.
Context (N : numops R) (builtins : list (builtin R)).
Variable fuel : nat.
Variable ph : list cphase.
Variable sets : list tset.
Variable npar : nat.
Variable cs : list (nat * con).
Hypothesis AP : apart addr (atoms_in ph) (length sets).
Hypothesis BO : blocks_ok ph.

Section From.
Variable s0 : cstate R.
Variable ly : layout.
Hypothesis W0 : wf (ctab s0).
Hypothesis M0 : mwf (cdvdp s0).
Hypothesis T0 : table s0 cs.
Hypothesis V0 : solvable N builtins s0 cs.
Let n := length (pval (ctab s0)).
Definition Inv (w : world) : Prop := agree addr ph N cs s0 (w_st w) /\ w_ly w = ly.
Definition Par (w : world) (p : nat -> R) : Prop := forall l, (1 <= l <= n)%nat -> pars_of (w_st w) l = p l.
Definition th (p : nat -> R) : outcome (list dsval) := theory_values addr N builtins fuel ly ph sets s0 p.

Lemma agree_calc s p : agree addr ph N cs s0 s -> theory_diff addr N builtins fuel ly ph sets (with_pars s p) = theory_diff addr N builtins fuel ly ph sets (with_pars s0 p).
Proof.
  intros A. pose proof A as ((I1 & I2 & I3) & A2 & A3 & A4 & A5). destruct T0 as [TA TB].
  apply (agree_same addr ph (length sets) AP N builtins cs); auto.
  - unfold wf, with_pars in *. simpl. rewrite map_length, seq_length. exact W0.
  - split. { repeat split; simpl; auto. rewrite !map_length, !seq_length. auto. } split; auto. split; auto. split; auto.
    intros j a c k Ej Hk Wr. simpl in Hk. rewrite map_length, seq_length in Hk. apply (A4 j a c k Ej Hk). rewrite <- Wr. symmetry. apply written_same. apply with_same.
  - unfold with_pars. simpl. rewrite I1, I2, I3. reflexivity.
  - apply (solvable_same N builtins s0); auto. apply with_same.
Qed.
Lemma inv_own w p : Inv w -> Par w p -> with_pars (w_st w) p = w_st w.
Proof. intros [((_ & _ & L) & _) _] P. apply with_own. intros l H. apply P. unfold n. lia. Qed.
Lemma put_ok w p : Inv w -> Inv (put_pars w p) /\ Par (put_pars w p) p.
Proof.
  intros [A L]. split. split; auto. apply agree_pars; auto. intros l H. apply pars_with. destruct A as ((_ & _ & L2) & _). unfold n in H. lia.
Qed.
Lemma diff_tab s ly' : fst (theory_diff addr N builtins fuel ly' ph sets s) = fst (theory_diff addr N builtins fuel ly' ph sets s) -> mwf (cdvdp s) -> ctab (fst (theory_diff addr N builtins fuel ly' ph sets s)) = ctab s.
Proof.
  intros _ M. unfold theory_diff. destruct (fill_variables N builtins s) as [s' r] eqn:F. destruct (fill_variables_frame N builtins s s' r F M) as (A & _). destruct r; auto.
Qed.
Lemma calc_ok w p : Inv w -> Par w p -> exists w', calc_diff addr N builtins fuel ph sets w = (w', th p) /\ Inv w' /\ Par w' p.
Proof.
  intros I P. pose proof (inv_own w p I P) as O. destruct I as [A L]. unfold calc_diff, th, theory_values. rewrite <- (agree_calc _ p A), O, L.
  pose proof (agree_step addr ph (length sets) AP BO N builtins cs (proj2 T0) s0 (w_st w) fuel ly sets A T0) as A'.
  assert (M : mwf (cdvdp (w_st w))) by apply A. pose proof (diff_tab (w_st w) ly eq_refl M) as TB.
  destruct (theory_diff addr N builtins fuel ly ph sets (w_st w)) as [st1 r]. cbn [fst snd] in *.
  assert (P' : forall pdf, Par (mkW st1 ly pdf) p). { intros pdf l H. unfold pars_of. cbn [w_st]. rewrite TB. apply P; auto. }
  destruct r; eexists; (split; [reflexivity|]); (split; [split; auto|apply P']).
Qed.
Lemma last_ok w p ds : Inv w -> Par w p -> th p = Ok ds -> exists w', calc_plain addr N builtins fuel ph sets w = (w', Ok tt) /\ settled addr N builtins fuel ph sets cs s0 (w_st w') (w_pdf w') p.
Proof.
  intros I P E. pose proof (inv_own w p I P) as O. destruct I as [A L]. unfold th, theory_values in E. apply omap_ok in E as (rs & E & _).
  rewrite <- (agree_calc _ p A), O in E. destruct (theory_diff addr N builtins fuel ly ph sets (w_st w)) as [st1 r] eqn:D. cbn [snd] in E. subst r.
  pose proof (plain_of_diff addr N builtins fuel ly ph sets _ _ _ D) as PD. unfold calc_plain. rewrite PD. eexists. split. reflexivity. cbn [w_st w_pdf].
  pose proof A as (SP & A2 & A3 & A4 & A5). pose proof (agree_table addr ph N cs (proj2 T0) _ _ A T0) as T.
  assert (W : wf (ctab (w_st w))). { destruct SP as (I1 & I2 & I3). unfold wf in *. rewrite I1, I2, I3. exact W0. }
  assert (V : solvable N builtins (w_st w) cs) by (apply (solvable_same N builtins s0); auto).
  destruct (fill_variables_ok N builtins (w_st w) cs W A3 T V) as (s1 & F & G1 & _ & G3 & _).
  unfold theory_plain in PD. rewrite F in PD. inversion PD as [[ES EP]]. clear PD.
  unfold settled. cbn [ctab cmem]. rewrite G1. split; [|split; [|split]].
  - destruct SP as (I1 & I2 & I3). split; auto. split; auto. split; auto. intros l Hl. rewrite <- (P (S l)) by (unfold n; lia). unfold pars_of. replace (S l - 1)%nat with l by lia. apply nth_error_nth'. auto.
  - intros a c La. pose proof (last_con_in a _ _ La) as Ic. destruct (con_val N builtins (env_of (ctab (w_st w))) c) as [x|] eqn:Ex. 2:{ destruct (V _ _ Ic Ex). }
    exists x. split; auto. assert (Q : cmem s1 a = x) by (rewrite G3, La, Ex; auto). rewrite <- Q. apply (wrap_stands addr ph (length sets) AP BO).
  - intros a NI. assert (Q : cmem s1 a = cmem (w_st w) a). { rewrite G3. destruct (last_con a cs) eqn:La; auto. apply last_con_in in La. apply (in_map fst) in La. contradiction. }
    specialize (A5 a NI). pose proof (wrap_stands addr ph (length sets) AP BO (cmem s1) a) as [X1 X2]. split.
    + intros NC. rewrite (X1 NC), Q. destruct A5 as [->|(x & Ix & Ax & _)]; auto. pose proof (in_coord addr ph x Ix) as C. destruct x as [[[? ?] ?] icc]. rewrite Ax in C. destruct (NC _ C).
    + intros icc C. destruct (X2 icc C) as [B1 (z & B2)]. split; auto. rewrite Q in B2. destruct A5 as [A5|(x & Ix & Ax & A5)]. rewrite <- A5. eauto.
      destruct (coord_in addr ph a icc C) as (y & Iy & Ay & Wy). assert (Wx : wicc x = IZR icc). { rewrite <- Wy. apply (wrap_inj addr ph (length sets) AP); auto. congruence. } rewrite Wx in A5.
      assert (PI : 0 < IZR icc) by (rewrite <- Wy; apply (wrap_pos ph BO); auto). destruct (fmod_ok (cmem (w_st w) a) _ PI) as [_ (z1 & Z1)]. destruct (fmod_ok (cmem s0 a) _ PI) as [_ (z2 & Z2)].
      exists (z - z1 + z2)%Z. rewrite B2, plus_IZR, minus_IZR. lra.
  - apply obind_ok in EP as (phd & Ph & EP). destruct (fold_lat _ _ _ Ph) as (des & -> & FL). cbn [app] in *. exists des. split; auto.
    destruct (fold_pdf addr fuel _ _ _ _ _ EP) as (rs' & R & F2). cbn [app] in R. rewrite R in *. split.
    + rewrite <- (Forall2_length _ _ _ F2), combine_length, seq_length. lia.
    + intros is s Es. assert (Q : nth_error (combine (seq 0 (length sets)) sets) is = Some (is, s)).
      { assert (X : (is < length sets)%nat) by (apply nth_error_Some; congruence). rewrite (nth_error_nth' _ (0%nat, s)) by (rewrite combine_length, seq_length; lia). rewrite combine_nth by (rewrite seq_length; auto). rewrite seq_nth by auto. rewrite (nth_error_nth _ _ _ Es). reflexivity. }
      destruct (Forall2_nth_l _ _ _ _ _ F2 Q) as (r & Er & Dr). exists r. auto.
Qed.
Lemma th_ext p q : (forall l, (1 <= l <= n)%nat -> p l = q l) -> th p = th q.
Proof.
  intros H. unfold th, theory_values. assert (E : with_pars s0 p = with_pars s0 q); [|rewrite E; auto]. unfold with_pars. do 2 f_equal. apply map_ext_in. intros l I. apply in_seq in I. apply H. unfold n. lia.
Qed.
End From.

Theorem world_same toler lfuel running c tx st pdf0 ly0 o : wf (ctab st) -> mwf (cdvdp st) -> table st cs -> solvable N builtins st cs -> fresh running c ->
  let O := theory_object addr N builtins fuel ph sets npar st o in
  exists w' b c' tx' o' r, ls_refine toler lfuel running c (tx, O) = (b, c', (tx', o'), r) /\
    world_refine addr N builtins fuel ph sets npar toler lfuel running c (tx, O, mkW st ly0 pdf0) = (b, c', (tx', o', w'), r) /\
    (r = Ok tt -> settled addr N builtins fuel ph sets cs st (w_st w') (w_pdf w') (f_p o')).
Proof.
  intros W M T V FR O. destruct (theory_setup addr N builtins ph (length sets) npar st) as [s0 r0] eqn:SE.
  assert (FO : f_theory O = fun p => match r0 with Ok ly => theory_values addr N builtins fuel ly ph sets s0 p | _ => UB end) by (unfold O, theory_object; rewrite SE; reflexivity).
  assert (FS : f_setup O = omap (fun _ => tt) r0) by (unfold O, theory_object; rewrite SE; reflexivity).
  assert (FM : f_ma O = length (pval (ctab st))) by (unfold O, theory_object; rewrite SE; reflexivity).
  assert (FP : f_p O = pars_of st) by (unfold O, theory_object; rewrite SE; reflexivity).
  unfold world_refine.
  destruct r0 as [ly|e| |].
  - unfold theory_setup in SE. destruct (fill_variables_ok N builtins st cs W M T V) as (s1 & F & G). rewrite F in SE. inversion SE as [[E1 E2]]. subst s1. clear SE.
    destruct G as (G1 & G2 & G3 & G4 & G5 & _).
    assert (W0 : wf (ctab s0)) by (rewrite G1; auto). assert (V0 : solvable N builtins s0 cs) by (unfold solvable; rewrite G1; exact V).
    assert (NC : forall a, ~ In a (map fst cs) -> cmem s0 a = cmem st a). { intros a NI. rewrite G3. destruct (last_con a cs) eqn:La; auto. apply last_con_in in La. apply (in_map fst) in La. contradiction. }
    destruct (refine_sim put_pars (calc_diff addr N builtins fuel ph sets) (setup_world addr N builtins ph sets npar) (calc_plain addr N builtins fuel ph sets)
      (th s0 ly) (length (pval (ctab s0))) (Inv s0 ly) (Par s0) (fun w p => settled addr N builtins fuel ph sets cs s0 (w_st w) (w_pdf w) p)
      (put_ok s0 ly) (calc_ok s0 ly W0 G5 G2 V0) (last_ok s0 ly W0 G5 G2 V0) (th_ext s0 ly) toler lfuel running c tx O (mkW st ly0 pdf0)) as (w' & b & c' & st' & o' & r & R1 & R2 & R3); auto.
    + rewrite FM, G1. auto.
    + exists (mkW s0 ly pdf0). split. unfold setup_world, theory_setup. cbn [w_st w_pdf]. rewrite F, E2, FS. reflexivity. intros _. split. split; auto. apply agree_refl; auto. intros l Hl. rewrite FP. cbn [w_st]. unfold pars_of. rewrite G1. auto.
    + exists w', b, c', st', o', r. split; auto. split; auto. intros E. destruct (R3 E) as (S1 & S2 & S3 & S4). rewrite G1 in S1. split; auto. split; auto. split; auto. intros a NI. rewrite <- NC by auto. auto.
  - destruct (refine_sim put_pars (calc_diff addr N builtins fuel ph sets) (setup_world addr N builtins ph sets npar) (calc_plain addr N builtins fuel ph sets)
      (f_theory O) (f_ma O) (fun _ => False) (fun _ _ => True) (fun _ _ => False)) with (toler := toler) (fuel := lfuel) (running := running) (c := c) (st := tx) (o := O) (w := mkW st ly0 pdf0) as (w' & b & c' & st' & o' & r & R1 & R2 & R3); auto; try tauto.
    + rewrite FO. auto.
    + eexists. split. unfold setup_world. cbn [w_st]. rewrite SE, FS. reflexivity. rewrite FS. discriminate.
    + exists w', b, c', st', o', r. split; auto. split; auto. intros E. destruct (R3 E).
  - destruct (refine_sim put_pars (calc_diff addr N builtins fuel ph sets) (setup_world addr N builtins ph sets npar) (calc_plain addr N builtins fuel ph sets)
      (f_theory O) (f_ma O) (fun _ => False) (fun _ _ => True) (fun _ _ => False)) with (toler := toler) (fuel := lfuel) (running := running) (c := c) (st := tx) (o := O) (w := mkW st ly0 pdf0) as (w' & b & c' & st' & o' & r & R1 & R2 & R3); auto; try tauto.
    + rewrite FO. auto.
    + eexists. split. unfold setup_world. cbn [w_st]. rewrite SE, FS. reflexivity. rewrite FS. discriminate.
    + exists w', b, c', st', o', r. split; auto. split; auto. intros E. destruct (R3 E).
  - destruct (refine_sim put_pars (calc_diff addr N builtins fuel ph sets) (setup_world addr N builtins ph sets npar) (calc_plain addr N builtins fuel ph sets)
      (f_theory O) (f_ma O) (fun _ => False) (fun _ _ => True) (fun _ _ => False)) with (toler := toler) (fuel := lfuel) (running := running) (c := c) (st := tx) (o := O) (w := mkW st ly0 pdf0) as (w' & b & c' & st' & o' & r & R1 & R2 & R3); auto; try tauto.
    + rewrite FO. auto.
    + eexists. split. unfold setup_world. cbn [w_st]. rewrite SE, FS. reflexivity. rewrite FS. discriminate.
    + exists w', b, c', st', o', r. split; auto. split; auto. intros E. destruct (R3 E).
Qed.
End Run.
