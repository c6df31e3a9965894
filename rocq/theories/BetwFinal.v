(** Between the steps of a refinement the memory shows the last trial. *)
From Coq Require Import List Arith ZArith Reals Bool Lia Lra.
From Verif Require Import Base GaussProof ParamModel ParamProof ParserModel ParserSpec ParserProof ParserDeriv Util MatrixModel MatrixProof ConModel ConSpec ConProof ConHist ConReal MathSpec MathModel MathProof MetricModel PdfModel LayoutModel LayoutSpec DerivModel LsModel LsSpec LsProof LsStep LsRun TheoryModel TheorySpec TheoryMem RunModel RunSpec RunProof RunFinal BetwSpec BetwProof.
Import ListNotations.
Local Open Scope R_scope.

Section Run.
Variable addr : rvar -> nat.
Context (N : numops R) (builtins : list (builtin R)).
Variable fuel : nat.
Variable ph : list cphase.
Variable sets : list tset.
Variable npar : nat.
Variable cs : list (nat * con).
Hypothesis AP : apart addr (atoms_in ph) (length sets).
Hypothesis BO : blocks_ok ph.
Let cal (s0 : cstate R) (w : world) (q : nat -> R) : Prop := shows addr N builtins fuel ph sets cs s0 w q.

Lemma with_twice (s : cstate R) a q : with_pars (with_pars s a) q = with_pars s q.
Proof. unfold with_pars. cbn [ctab pval pfree pid cons_ cdvdp cmem]. rewrite map_length, seq_length. reflexivity. Qed.
Lemma cal_put s0 w a q : cal s0 w q -> cal s0 (put_pars w a) q.
Proof. unfold cal, shows, put_pars. cbn [w_st w_pdf]. rewrite with_twice. auto. Qed.
Lemma diff_plain w w' ds : calc_diff addr N builtins fuel ph sets w = (w', Ok ds) -> calc_plain addr N builtins fuel ph sets w = (w', Ok tt).
Proof.
  unfold calc_diff, calc_plain. destruct (theory_diff addr N builtins fuel (w_ly w) ph sets (w_st w)) as [st1 r] eqn:D. destruct r as [rs|e| |]; intros E; inversion E; subst.
  rewrite (plain_of_diff addr N builtins fuel (w_ly w) ph sets _ _ _ D). reflexivity.
Qed.
Lemma settled_own s0 st pdf q : settled addr N builtins fuel ph sets cs s0 st pdf q -> with_pars st q = st.
Proof. intros ((_ & _ & _ & E) & _). apply with_own. intros l Hl. unfold pars_of. specialize (E (l - 1)%nat ltac:(lia)). replace (S (l - 1)) with l in E by lia. apply nth_error_nth. auto. Qed.
Lemma cal_calc s0 ly w a ds : wf (ctab s0) -> mwf (cdvdp s0) -> table s0 cs -> solvable N builtins s0 cs -> Inv addr N ph cs s0 ly w -> Par s0 w a -> th addr N builtins fuel ph sets s0 ly a = Ok ds ->
  cal s0 (fst (calc_diff addr N builtins fuel ph sets w)) a.
Proof.
  intros W0 M0 T0 V0 I P TH. destruct (calc_ok addr N builtins fuel ph sets cs AP BO s0 ly W0 M0 T0 V0 w a I P) as (w1 & C & _). rewrite TH in C.
  destruct (last_ok addr N builtins fuel ph sets cs AP BO s0 ly W0 M0 T0 V0 w a ds I P TH) as (w2 & L & S). rewrite (diff_plain _ _ _ C) in L. inversion L; subst w2. rewrite C. cbn [fst]. unfold cal, shows. rewrite (settled_own _ _ _ _ S). auto.
Qed.

(** from what a step tried to the statement *)
Lemma tried_trial (t : (nat -> R) -> outcome (list dsval)) (K : world -> (nat -> R) -> Prop) o0 o1 w :
  f_theory o1 = t -> f_ma o1 = f_ma o0 -> f_ia o1 = f_ia o0 -> tried t K o0 o1 w -> exists q, K w q /\ trial_of o0 o1 q.
Proof.
  intros T MA IA (q & dsq & ds & lam & TQ & TD & C & FX & D). exists q. split; auto. exists ds, dsq, lam. unfold free in *. rewrite T, MA, IA. split; auto.
Qed.

Theorem between toler running c tx st pdf0 ly0 o : wf (ctab st) -> mwf (cdvdp st) -> table st cs -> solvable N builtins st cs -> fresh running c ->
  let O := theory_object addr N builtins fuel ph sets npar st o in
  (forall n running1 c1 tx1 o1 w1, world_steps addr N builtins fuel ph sets npar toler (S n) running c (tx, O, mkW st ly0 pdf0) = Some (running1, c1, (tx1, o1, w1)) ->
  ls_steps toler (S n) running c (tx, O) = Some (running1, c1, (tx1, o1)) /\ getpar_is (w_st w1) (f_p o1) /\
  exists running0 c0 tx0 o0 w0, world_steps addr N builtins fuel ph sets npar toler n running c (tx, O, mkW st ly0 pdf0) = Some (running0, c0, (tx0, o0, w0)) /\
    exists q, shows addr N builtins fuel ph sets cs st w1 q /\ trial_of o0 o1 q) /\
  (forall n running1 c1 tx1 o1, ls_steps toler n running c (tx, O) = Some (running1, c1, (tx1, o1)) ->
    exists w1, world_steps addr N builtins fuel ph sets npar toler n running c (tx, O, mkW st ly0 pdf0) = Some (running1, c1, (tx1, o1, w1))).
Proof.
  intros W M T V FR O. destruct (theory_setup addr N builtins ph (length sets) npar st) as [s0 r0] eqn:SE.
  assert (FO : f_theory O = fun p => match r0 with Ok ly => theory_values addr N builtins fuel ly ph sets s0 p | _ => UB end) by (unfold O, theory_object; rewrite SE; reflexivity).
  assert (FS : f_setup O = omap (fun _ => tt) r0) by (unfold O, theory_object; rewrite SE; reflexivity).
  assert (FM : f_ma O = length (pval (ctab st))) by (unfold O, theory_object; rewrite SE; reflexivity).
  assert (FP : f_p O = pars_of st) by (unfold O, theory_object; rewrite SE; reflexivity).
  assert (FF : (running && negb (c_iter c =? 0)%nat)%bool = false). { destruct FR as [->| ->]; auto. rewrite andb_false_r. auto. }
  destruct r0 as [ly|e| |].
  2-4: assert (BAD : forall n x, world_steps addr N builtins fuel ph sets npar toler (S n) running c (tx, O, mkW st ly0 pdf0) <> Some x);
    [ induction n as [|n IH]; intros x E; cbn [world_steps] in E; [|change (match world_steps addr N builtins fuel ph sets npar toler (S n) running c (tx, O, mkW st ly0 pdf0) with Some (running, c, x) => match world_step addr N builtins fuel ph sets npar toler running c x with (running', c', x', Ok false) => Some (running', c', x') | _ => None end | None => None end = Some x) in E; destruct (world_steps addr N builtins fuel ph sets npar toler (S n) running c (tx, O, mkW st ly0 pdf0)); [eapply IH; eauto|discriminate]];
      unfold world_step, wstep, refine_step, w_setup, setup_world in E; rewrite FF in E; cbn [w_st] in E; rewrite SE in E; discriminate
    | split; [intros n running1 c1 tx1 o1 w1 E; destruct (BAD _ _ E)|];
      assert (BAD2 : forall n x, ls_steps toler (S n) running c (tx, O) <> Some x);
      [ induction n as [|n IH]; intros x E; cbn [ls_steps] in E; [|change (match ls_steps toler (S n) running c (tx, O) with Some (running, c, x) => match ls_step toler running c x with (running', c', x', Ok false) => Some (running', c', x') | _ => None end | None => None end = Some x) in E; destruct (ls_steps toler (S n) running c (tx, O)); [eapply IH; eauto|discriminate]];
        unfold ls_step, refine_step, ls_setup in E; rewrite FF in E; cbn [set_chisq set_lambda f_setup] in E; rewrite FS in E; discriminate
      | intros [|n] running1 c1 tx1 o1 E; [inversion E; subst; eexists; reflexivity|destruct (BAD2 _ _ E)] ] ].
  unfold theory_setup in SE. destruct (fill_variables_ok N builtins st cs W M T V) as (s1 & F & G). rewrite F in SE. inversion SE as [[E1 E2]]. subst s1. clear SE.
  destruct G as (G1 & G2 & G3 & G4 & G5 & _).
  assert (W0 : wf (ctab s0)) by (rewrite G1; auto). assert (V0 : solvable N builtins s0 cs) by (unfold solvable; rewrite G1; exact V).
  assert (NC : forall a, ~ In a (map fst cs) -> cmem s0 a = cmem st a). { intros a NI. rewrite G3. destruct (last_con a cs) eqn:La; auto. apply last_con_in in La. apply (in_map fst) in La. contradiction. }
  set (t := th addr N builtins fuel ph sets s0 ly). set (nn := length (pval (ctab s0))).
  assert (SH : forall w q, cal s0 w q -> shows addr N builtins fuel ph sets cs st w q).
  { intros w q (S1 & S2 & S3 & S4). rewrite G1 in S1. split; auto. split; auto. split; auto. intros a NI. rewrite <- NC by auto. auto. }
  assert (PG : forall w o, Inv addr N ph cs s0 ly w -> Par s0 w (f_p o) -> getpar_is (w_st w) (f_p o)).
  { intros w o' [((_ & _ & L2) & _) _] P l Hl. rewrite <- (P (S l)) by lia. unfold pars_of. replace (S l - 1)%nat with l by lia. apply nth_error_nth'. auto. }
  assert (X : forall n running1 c1 tx1 o1 w1, world_steps addr N builtins fuel ph sets npar toler (S n) running c (tx, O, mkW st ly0 pdf0) = Some (running1, c1, (tx1, o1, w1)) ->
    ls_steps toler (S n) running c (tx, O) = Some (running1, c1, (tx1, o1)) /\ Inv addr N ph cs s0 ly w1 /\ Par s0 w1 (f_p o1) /\
    exists running0 c0 tx0 o0 w0, world_steps addr N builtins fuel ph sets npar toler n running c (tx, O, mkW st ly0 pdf0) = Some (running0, c0, (tx0, o0, w0)) /\
      exists q, cal s0 w1 q /\ trial_of o0 o1 q).
  { induction n as [|n IH]; intros running1 c1 tx1 o1 w1 E.
    - cbn [world_steps] in E. destruct (world_step addr N builtins fuel ph sets npar toler running c (tx, O, mkW st ly0 pdf0)) as [[[b' c'] [[st' o'] w']] [[|]|e| |]] eqn:ST; inversion E; subst. clear E.
      assert (FS1 : f_setup O = Ok tt) by (rewrite FS; reflexivity). destruct (first_step put_pars (calc_diff addr N builtins fuel ph sets) (setup_world addr N builtins ph sets npar) (calc_plain addr N builtins fuel ph sets) t nn (Inv addr N ph cs s0 ly) (Par s0) (cal s0)
        (put_ok addr N ph cs s0 ly) (cal_put s0) (calc_ok addr N builtins fuel ph sets cs AP BO s0 ly W0 G5 G2 V0) (th_ext addr N builtins fuel ph sets s0 ly)
        (fun w a ds => cal_calc s0 ly w a ds W0 G5 G2 V0) toler running c tx O (mkW st ly0 pdf0)) as (b3 & c3 & t3 & o3 & w3 & r3 & L & ST2 & TR); auto.
      + rewrite FM. unfold nn. rewrite G1. auto.
      + exists (mkW s0 ly pdf0). split. unfold setup_world, theory_setup. cbn [w_st w_pdf]. rewrite F, E2, FS. reflexivity. intros _. split. split; auto. apply agree_refl; auto. intros l Hl. rewrite FP. cbn [w_st]. unfold pars_of. rewrite G1. auto.
      + change (world_step addr N builtins fuel ph sets npar toler running c (tx, O, mkW st ly0 pdf0) = (b3, c3, (t3, o3, w3), r3)) in ST2. rewrite ST in ST2. injection ST2; intros; subst b3 c3 t3 o3 w3 r3. destruct (TR eq_refl) as (I1 & P1 & TR1).
        assert (LS : ls_steps toler 1 running c (tx, O) = Some (running1, c1, (tx1, o1))) by (cbn [ls_steps]; rewrite L; auto).
        split. exact LS. split; auto. split; auto. do 5 eexists. split. reflexivity.
        destruct (steps_under_way toler running c tx O FR 0 _ _ _ LS) as (_ & _ & ds0 & _ & [ds s _ _ (S1 & S2 & S3 & S4) _ _] & _). cbn [snd] in *.
        apply (tried_trial t (cal s0) O o1 w1); auto. rewrite S3, FO. reflexivity.
    - change (match world_steps addr N builtins fuel ph sets npar toler (S n) running c (tx, O, mkW st ly0 pdf0) with Some (running, c, x) => match world_step addr N builtins fuel ph sets npar toler running c x with (running', c', x', Ok false) => Some (running', c', x') | _ => None end | None => None end = Some (running1, c1, (tx1, o1, w1))) in E.
      destruct (world_steps addr N builtins fuel ph sets npar toler (S n) running c (tx, O, mkW st ly0 pdf0)) as [[[r0 c0] [[st2 o2] w2]]|] eqn:PR; [|discriminate].
      destruct (IH _ _ _ _ _ eq_refl) as (L0 & I0 & P0 & _).
      destruct (steps_under_way toler running c tx O FR n _ _ _ L0) as (-> & CI & ds0 & _ & [ds s LI LA (S1 & S2 & S3 & S4) _ _] & _). cbn [fst snd] in *.
      assert (ES : st2 = Some s) by apply LI. subst st2.
      destruct (world_step addr N builtins fuel ph sets npar toler true c0 (Some s, o2, w2)) as [[[b' c'] [[st' o'] w']] [[|]|e| |]] eqn:ST; inversion E; subst. clear E.
      destruct (need_more c0) eqn:NM. 2:{ eapply no_more in ST; [destruct ST|lia|auto]. }
      destruct (next_step put_pars (calc_diff addr N builtins fuel ph sets) (setup_world addr N builtins ph sets npar) (calc_plain addr N builtins fuel ph sets) t nn (Inv addr N ph cs s0 ly) (Par s0) (cal s0)
        (put_ok addr N ph cs s0 ly) (cal_put s0) (calc_ok addr N builtins fuel ph sets cs AP BO s0 ly W0 G5 G2 V0) (th_ext addr N builtins fuel ph sets s0 ly)
        (fun w a ds => cal_calc s0 ly w a ds W0 G5 G2 V0) toler c0 s o2 w2 ds) as (b3 & c3 & t3 & o3 & w3 & r3 & L & ST2 & TR); auto; try lia.
      + rewrite S3, FO. reflexivity.
      + rewrite S1, FM. unfold nn. rewrite G1. auto.
      + change (world_step addr N builtins fuel ph sets npar toler true c0 (Some s, o2, w2) = (b3, c3, (t3, o3, w3), r3)) in ST2. rewrite ST in ST2. injection ST2; intros; subst b3 c3 t3 o3 w3 r3. destruct (TR eq_refl) as (I1 & P1 & TR1).
        assert (LS : ls_steps toler (S (S n)) running c (tx, O) = Some (running1, c1, (tx1, o1))).
        { change (match ls_steps toler (S n) running c (tx, O) with Some (running, c, x) => match ls_step toler running c x with (running', c', x', Ok false) => Some (running', c', x') | _ => None end | None => None end = Some (running1, c1, (tx1, o1))). rewrite L0, L. reflexivity. }
        split. exact LS. split; auto. split; auto. do 5 eexists. split. reflexivity.
        destruct (steps_under_way toler running c tx O FR (S n) _ _ _ LS) as (_ & _ & ds1 & _ & [ds2 s2 _ _ (S5 & S6 & S7 & S8) _ _] & _). cbn [snd] in *.
        apply (tried_trial t (cal s0) o2 o1 w1); auto; try congruence. rewrite S7, FO. reflexivity. }
  split.
  { intros n running1 c1 tx1 o1 w1 E. destruct (X _ _ _ _ _ _ E) as (A & B & C & r1 & c2 & t2 & o2 & w2 & D & q & K & Q). split; auto. split; auto. do 5 eexists. split. exact D. exists q. split; auto. }
  induction n as [|n IH]; intros running1 c1 tx1 o1 E. { inversion E; subst. eexists. reflexivity. }
  destruct n as [|n].
  - cbn [ls_steps] in E. cbn [world_steps].
    assert (FS1 : f_setup O = Ok tt) by (rewrite FS; reflexivity). destruct (first_step put_pars (calc_diff addr N builtins fuel ph sets) (setup_world addr N builtins ph sets npar) (calc_plain addr N builtins fuel ph sets) t nn (Inv addr N ph cs s0 ly) (Par s0) (cal s0)
      (put_ok addr N ph cs s0 ly) (cal_put s0) (calc_ok addr N builtins fuel ph sets cs AP BO s0 ly W0 G5 G2 V0) (th_ext addr N builtins fuel ph sets s0 ly)
      (fun w a ds => cal_calc s0 ly w a ds W0 G5 G2 V0) toler running c tx O (mkW st ly0 pdf0)) as (b3 & c3 & t3 & o3 & w3 & r3 & L & ST2 & TR); auto.
    + rewrite FM. unfold nn. rewrite G1. auto.
    + exists (mkW s0 ly pdf0). split. unfold setup_world, theory_setup. cbn [w_st w_pdf]. rewrite F, E2, FS. reflexivity. intros _. split. split; auto. apply agree_refl; auto. intros l Hl. rewrite FP. cbn [w_st]. unfold pars_of. rewrite G1. auto.
    + change (world_step addr N builtins fuel ph sets npar toler running c (tx, O, mkW st ly0 pdf0) = (b3, c3, (t3, o3, w3), r3)) in ST2. rewrite ST2. rewrite L in E. destruct r3 as [[|]|e| |]; inversion E; subst. eexists. reflexivity.
  - change (match ls_steps toler (S n) running c (tx, O) with Some (running, c, x) => match ls_step toler running c x with (running', c', x', Ok false) => Some (running', c', x') | _ => None end | None => None end = Some (running1, c1, (tx1, o1))) in E.
    destruct (ls_steps toler (S n) running c (tx, O)) as [[[r0 c0] [st2 o2]]|] eqn:L0; [|discriminate]. destruct (IH _ _ _ _ eq_refl) as (w2 & PR). destruct (X _ _ _ _ _ _ PR) as (_ & I0 & P0 & _).
    destruct (steps_under_way toler running c tx O FR n _ _ _ L0) as (-> & CI & ds0 & _ & [ds s LI LA (S1 & S2 & S3 & S4) _ _] & _). cbn [fst snd] in *.
    assert (ES : st2 = Some s) by apply LI. subst st2.
    change (exists w1, match world_steps addr N builtins fuel ph sets npar toler (S n) running c (tx, O, mkW st ly0 pdf0) with Some (running, c, x) => match world_step addr N builtins fuel ph sets npar toler running c x with (running', c', x', Ok false) => Some (running', c', x') | _ => None end | None => None end = Some (running1, c1, (tx1, o1, w1))). rewrite PR.
    destruct (need_more c0) eqn:NM.
    2:{ exfalso. unfold ls_step, refine_step in E. destruct (Nat.eqb_spec (c_iter c0) 0) as [|_]; [lia|]. cbn [negb andb] in E. rewrite NM in E. destruct (ls_finish (Some s, o2)) as [y r]. destruct r; discriminate. }
    destruct (next_step put_pars (calc_diff addr N builtins fuel ph sets) (setup_world addr N builtins ph sets npar) (calc_plain addr N builtins fuel ph sets) t nn (Inv addr N ph cs s0 ly) (Par s0) (cal s0)
      (put_ok addr N ph cs s0 ly) (cal_put s0) (calc_ok addr N builtins fuel ph sets cs AP BO s0 ly W0 G5 G2 V0) (th_ext addr N builtins fuel ph sets s0 ly)
      (fun w a ds => cal_calc s0 ly w a ds W0 G5 G2 V0) toler c0 s o2 w2 ds) as (b3 & c3 & t3 & o3 & w3 & r3 & L & ST2 & TR); auto; try lia.
    + rewrite S3, FO. reflexivity.
    + rewrite S1, FM. unfold nn. rewrite G1. auto.
    + change (world_step addr N builtins fuel ph sets npar toler true c0 (Some s, o2, w2) = (b3, c3, (t3, o3, w3), r3)) in ST2. rewrite ST2. rewrite L in E. destruct r3 as [[|]|e| |]; inversion E; subst. eexists. reflexivity.
Qed.
End Run.
