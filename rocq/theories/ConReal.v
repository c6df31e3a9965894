(** The derivative table over whole histories (C05). *)
From Coq Require Import List ZArith Ascii Bool Lia Reals Lra.
From Verif Require Import Base ParamModel ParamProof ParserModel ParserLex ParserSafe ParserSpec
  ParserGram ParserProof ParserDeriv ParserUsed Util MatrixModel MatrixProof MathModel MathSpec MathProof ConModel ConSpec
  ConProof ConHist.
Import ListNotations.

Section Gen.
Context {T : Type} (N : numops T) (builtins : list (builtin T)).

Lemma store_derivs_same (t : ptab T) i d : forall used iu r (m : matrix T) r' m',
  mwf m -> store_derivs t i used d iu r m = Ok (r', m') ->
  forall j k, j <> i \/ ~ In k used -> mx_get m' j k = mx_get m j k.
Proof.
  induction used as [|u us IH]; intros iu r m r' m' W H j k C; simpl in H.
  - inversion H; subst; auto.
  - apply obind_ok in H as (b & _ & H). destruct b.
    + apply obind_ok in H as (x & _ & H). apply obind_ok in H as (m1 & M & H).
      destruct (mx_set_wf _ _ _ _ _ W M) as (W1 & _ & _).
      rewrite (IH _ _ _ _ _ W1 H j k) by (simpl in C; tauto).
      assert (i < mrows m /\ u < mcols m) as [Hi Hk].
      { unfold mx_set in M. destruct (Nat.ltb_spec i (mrows m)); [|discriminate].
        destruct (Nat.ltb_spec u (mcols m)); [|discriminate]. auto. }
      destruct (mx_set_spec m i u x W Hi Hk) as (m2 & M1 & _ & _ & _ & _ & M6).
      assert (m2 = m1) by congruence. subst m2. apply M6. intros Q. inversion Q; subst. simpl in C. tauto.
    + apply (IH _ _ _ _ _ W H j k). simpl in C. tauto.
Qed.

Lemma mx_set_same (m : matrix T) i u x m1 j k : mwf m -> mx_set m i u x = Ok m1 -> (j, k) <> (i, u) ->
  mx_get m1 j k = mx_get m j k.
Proof.
  intros W M NE. assert (i < mrows m /\ u < mcols m) as [Hi Hk].
  { unfold mx_set in M. destruct (Nat.ltb_spec i (mrows m)); [|discriminate].
    destruct (Nat.ltb_spec u (mcols m)); [|discriminate]. auto. }
  destruct (mx_set_spec m i u x W Hi Hk) as (m2 & M1 & _ & _ & _ & _ & M6).
  assert (m2 = m1) by congruence. subst m2. auto.
Qed.

Lemma fill_one_dvdp (s : cstate T) i s' r a c : fill_one N builtins s i = (s', r) -> mwf (cdvdp s) ->
  (forall e, nth_error (cons_ s) i = Some e -> holds e (a, c)) -> con_ok c ->
  mrows (cdvdp s') = mrows (cdvdp s) /\ mcols (cdvdp s') = mcols (cdvdp s) /\
  forall j k, j <> i \/ (forall n, In n (con_pars c) -> parfind (ctab s) n <> Some k) ->
    mx_get (cdvdp s') j k = mx_get (cdvdp s) j k.
Proof.
  intros H M Hh OK. unfold fill_one in H. destruct (nth_error (cons_ s) i) as [e|] eqn:E.
  2:{ inversion H; subst; auto. }
  destruct (Hh e eq_refl) as [Ha Hc]. simpl in Hc.
  destruct c as [line tr|kk n].
  - destruct OK as (O1 & O2 & O3). rewrite Hc in H. destruct line as [|ch f]; [congruence|].
    destruct (parse N builtins (ctab s) (ch :: f)) as [[[v d] used]|x| |] eqn:P; try (inversion H; subst; simpl; auto; fail).
    destruct (store_derivs (ctab s) i used d 0 false (cdvdp s)) as [[r' m]|x| |] eqn:Es;
      inversion H; subst; simpl; auto.
    destruct (store_derivs_frame _ _ _ _ _ _ _ _ _ M Es) as (_ & F1 & F2). split; auto. split; auto.
    intros j k C. eapply store_derivs_same; eauto. destruct C as [C|C]; auto. right. intros I.
    destruct (parse_used N builtins (ctab s) _ tr v d used O2 P) as (_ & U). destruct (U k I) as (n & In_ & Q).
    apply (C n In_ Q).
  - destruct Hc as (H1 & H2 & H3). rewrite H1, H2 in H.
    destruct (parfind (ctab s) n) as [k|] eqn:P. 2:{ inversion H; subst; simpl; auto. }
    destruct (nth_error (pfree (ctab s)) k) as [fr|]. 2:{ inversion H; subst; simpl; auto. }
    destruct (nth_error (pval (ctab s)) k) as [p|]. 2:{ inversion H; subst; simpl; auto. }
    assert (G : forall v dv, (match mx_set (cdvdp s) i k dv with
       | Ok m => (mkCst (ctab s) (set_ref i fr (cons_ s)) m (mem_set (cmem s) (cvar e) v), Ok tt)
       | _ => (mkCst (ctab s) (set_ref i false (cons_ s)) (cdvdp s) (cmem s), UB) end) = (s', r) ->
       mrows (cdvdp s') = mrows (cdvdp s) /\ mcols (cdvdp s') = mcols (cdvdp s) /\
       forall j k, j <> i \/ (forall m, In m (con_pars (KPar kk n)) -> parfind (ctab s) m <> Some k) ->
         mx_get (cdvdp s') j k = mx_get (cdvdp s) j k).
    { intros v dv G. destruct (mx_set (cdvdp s) i k dv) as [m|x| |] eqn:Em; inversion G; subst; simpl; auto.
      destruct (mx_set_wf _ _ _ _ _ M Em) as (_ & W1 & W2). split; auto. split; auto.
      intros j k' C. eapply mx_set_same; eauto. intros Q. inversion Q; subst. destruct C as [C|C]; [congruence|].
      apply (C _ (or_introl eq_refl)). auto. }
    destruct (ctype e); try (apply G in H; exact H). inversion H; subst; simpl; auto.
Qed.

(** entries of parameters that do not occur in the constraint are zero *)
Definition clear (s : cstate T) (cs : list (nat * con)) : Prop :=
  forall j a c k x, nth_error cs j = Some (a, c) -> mx_get (cdvdp s) j k = Ok x ->
    (forall n, In n (con_pars c) -> parfind (ctab s) n <> Some k) -> x = n_zero N.

Lemma strip_holds l l' cs : map strip l' = map strip l -> Forall2 holds l cs -> Forall2 holds l' cs.
Proof.
  intros H F. revert l' H. induction F as [|e ac l cs R F IH]; intros [|e' l'] H; simpl in H; try discriminate; constructor.
  - inversion H. destruct R as [R1 R2]. split; [congruence|]. destruct (snd ac); intuition congruence.
  - apply IH. congruence.
Qed.

Lemma fill_one_clear (s : cstate T) i s' r cs : fill_one N builtins s i = (s', r) -> mwf (cdvdp s) ->
  table s cs -> i < length cs -> clear s cs ->
  mwf (cdvdp s') /\ table s' cs /\ clear s' cs /\ ctab s' = ctab s /\
  mrows (cdvdp s') = mrows (cdvdp s) /\ mcols (cdvdp s') = mcols (cdvdp s).
Proof.
  intros H M [F OK] L C. destruct (nth_error cs i) as [[a c]|] eqn:Ec. 2:{ apply nth_error_None in Ec. lia. }
  destruct (fill_one_frame N builtins s i s' r H M) as (A1 & A2 & A3 & _).
  pose proof (Forall_nth_error _ _ _ _ OK Ec) as Oc. simpl in Oc.
  destruct (fill_one_dvdp s i s' r a c H M) as (B1 & B2 & B3); auto.
  { intros e E. destruct (Forall2_nth_l _ _ _ _ _ F E) as (b & Eb & Hb). congruence. }
  split; auto. split; [split; auto; eapply strip_holds; eauto|]. split; [|auto].
  intros j b d k x Ej Ex NI. rewrite A1 in NI. apply (C j b d k x Ej); auto. rewrite <- B3; auto.
  destruct (Nat.eq_dec j i); auto. subst j. right. rewrite Ec in Ej. inversion Ej; subst. auto.
Qed.

Lemma fill_loop_clear cs : forall n i (s s' : cstate T) r, fill_loop N builtins s n i = (s', r) -> mwf (cdvdp s) ->
  table s cs -> i + n <= length cs -> clear s cs ->
  mwf (cdvdp s') /\ table s' cs /\ clear s' cs /\ ctab s' = ctab s /\
  mrows (cdvdp s') = mrows (cdvdp s) /\ mcols (cdvdp s') = mcols (cdvdp s).
Proof.
  induction n as [|n IH]; intros i s s' r H M F L C; simpl in H.
  - inversion H; subst; auto 10.
  - destruct (fill_one N builtins s i) as [s1 r1] eqn:E.
    destruct (fill_one_clear s i s1 r1 cs E M F) as (A1 & A2 & A3 & A4 & A5 & A6); auto. lia.
    destruct r1; try (inversion H; subst; auto 10; fail).
    destruct (IH (S i) s1 s' r H) as (B1 & B2 & B3 & B4 & B5 & B6); auto. lia.
    repeat (split; auto); congruence.
Qed.

Definition dinv (s : cstate T) (cs : list (nat * con)) : Prop :=
  wf (ctab s) /\ mwf (cdvdp s) /\ table s cs /\ clear s cs /\
  mrows (cdvdp s) <= length cs /\ mcols (cdvdp s) <= length (pval (ctab s)).

Lemma mx_get_bound (m : matrix T) i j x : mx_get m i j = Ok x -> i < mrows m /\ j < mcols m.
Proof.
  unfold mx_get. destruct (Nat.ltb_spec i (mrows m)); [|discriminate].
  destruct (Nat.ltb_spec j (mcols m)); [|discriminate]. auto.
Qed.

Lemma fill_variables_dinv (s s' : cstate T) r cs : dinv s cs -> fill_variables N builtins s = (s', r) -> dinv s' cs.
Proof.
  intros (W & M & F & C & L1 & L2) H. unfold fill_variables in H.
  destruct (mx_resize_spec (n_zero N) (cdvdp s) (length (cons_ s)) (length (pval (ctab s))) M)
    as (m & R1 & R2 & R3 & R4 & R5). rewrite R1 in H.
  pose proof (Forall2_length _ _ _ (proj1 F)) as Len.
  assert (C1 : clear (mkCst (ctab s) (cons_ s) m (cmem s)) cs).
  { intros j a c k x Ej Ex NI. simpl in *. destruct (mx_get_bound _ _ _ _ Ex) as [Bi Bj].
    rewrite R5 in Ex by lia. destruct ((j <? mrows (cdvdp s)) && (k <? mcols (cdvdp s)))%bool.
    eapply C; eauto. congruence. }
  destruct (fill_loop_clear cs _ _ _ _ _ H R2) as (B1 & B2 & B3 & B4 & B5 & B6); auto. lia.
  simpl in *. unfold dinv. rewrite B4, B5, B6. repeat (split; auto). all: try apply W; try apply B2. lia. lia.
Qed.

(** positions only grow *)
Lemma parfind_mono (t : ptab T) o n k : parfind t n = Some k -> parfind (fst (pstep t o)) n = Some k.
Proof.
  intros H. destruct o as [m v|m|m|m]; simpl; auto.
  - unfold setpar. destruct (parfind t m) eqn:P; auto. unfold parfind. simpl. rewrite find_pos_app.
    unfold parfind in H. rewrite H. auto.
  - unfold fixpar, setflag. destruct (m =? -1)%Z; simpl; auto. destruct (parfind t m); simpl; auto.
    destruct (_ <? _)%nat; simpl; auto.
  - unfold freepar, setflag. destruct (m =? -1)%Z; simpl; auto. destruct (parfind t m); simpl; auto.
    destruct (_ <? _)%nat; simpl; auto.
Qed.

Lemma pval_mono (t : ptab T) o : length (pval t) <= length (pval (fst (pstep t o))).
Proof.
  destruct o as [m v|m|m|m]; simpl; auto.
  - unfold setpar. destruct (parfind t m); simpl. rewrite upd_length; auto. rewrite app_length; simpl; lia.
  - unfold fixpar, setflag. destruct (m =? -1)%Z; simpl; auto. destruct (parfind t m); simpl; auto.
    destruct (_ <? _)%nat; simpl; auto.
  - unfold freepar, setflag. destruct (m =? -1)%Z; simpl; auto. destruct (parfind t m); simpl; auto.
    destruct (_ <? _)%nat; simpl; auto.
Qed.

Lemma find_var_absent a l cs : Forall2 holds l cs -> ~ In a (map fst cs) -> find_var a l = None.
Proof.
  intros H. induction H as [|e [b c] l cs R F IH]; simpl; intros NI; auto.
  destruct R as [R _]. simpl in R. destruct (Nat.eqb_spec (cvar e) a). exfalso; apply NI; left; congruence.
  rewrite IH; auto.
Qed.

Lemma dinv_step (s : cstate T) cs o : dinv s cs ->
  match o with UCon a c => con_ok c /\ ~ In a (map fst cs) | _ => True end ->
  dinv (fst (cstep N builtins s (to_cop o))) (cs ++ match o with UCon a c => [(a, c)] | _ => [] end).
Proof.
  intros D H. destruct o as [p|a c|a v|].
  - rewrite app_nil_r. destruct D as (W & M & F & C & L1 & L2). simpl. unfold dinv; simpl.
    split. apply wf_step; auto. split; auto. split; auto. split; [|split; auto].
    + intros j a c k x Ej Ex NI. eapply C; eauto. intros n I Q. apply (NI n I). apply parfind_mono. auto.
    + pose proof (pval_mono (ctab s) p). lia.
  - destruct H as [OK NI]. destruct D as (W & M & (F & FO) & C & L1 & L2).
    assert (G : forall f n ty, holds (mkCon a f n ty true) (a, c) -> dinv (constrain s a f n ty) (cs ++ [(a, c)])).
    { intros f n ty Hh. unfold constrain, vfind. rewrite (find_var_absent a _ cs F NI).
      unfold dinv; simpl. split; auto. split; auto. split.
      { split. simpl. apply Forall2_app; auto. apply Forall_app. auto. }
      split. 2:{ rewrite app_length; simpl; lia. }
      intros j b d k x Ej Ex Hn. simpl in Ex, Hn.
      assert (j < length cs) by (destruct (mx_get_bound _ _ _ _ Ex); lia).
      rewrite nth_error_app1 in Ej by auto. eapply C; eauto. }
    destruct c as [line e|k n].
    + simpl. apply G. split; simpl; auto.
    + destruct k; simpl; apply G; split; simpl; auto.
  - rewrite app_nil_r. exact D.
  - rewrite app_nil_r. simpl. destruct (fill_variables N builtins s) as [s' r] eqn:E. simpl.
    eapply fill_variables_dinv; eauto.
Qed.

Lemma NoDup_app_l {A} (l l' : list A) : NoDup (l ++ l') -> NoDup l.
Proof. induction l; simpl; intros H. constructor. inversion H; subst. constructor; auto. intros I. apply H2. apply in_app_iff; auto. Qed.

Lemma NoDup_app_snoc {A} (l : list A) x : NoDup (l ++ [x]) -> ~ In x l.
Proof. intros H. apply NoDup_remove_2 in H. rewrite app_nil_r in H. auto. Qed.

Lemma dinv_run mem (h : list (uop T)) : Forall (fun ac => con_ok (snd ac)) (ucons h) -> NoDup (map fst (ucons h)) ->
  dinv (crun N builtins (cinit mem) (map to_cop h)) (ucons h).
Proof.
  induction h as [|o h IH] using rev_ind; intros FO ND.
  - unfold dinv; simpl. split. apply wf_init. split. repeat split. split. split; constructor.
    split; auto. intros [|j]; discriminate.
  - unfold ucons in *. rewrite flat_map_app in *. rewrite map_app in *. simpl map in *.
    rewrite crun_snoc. apply Forall_app in FO as [F1 F2].
    simpl flat_map in *. rewrite app_nil_r in *.
    apply dinv_step.
    + apply IH; auto. eapply NoDup_app_l; eauto.
    + destruct o as [p|a c|a v|]; auto. split. inversion F2; auto. simpl in ND. apply NoDup_app_snoc in ND. auto.
Qed.

End Gen.

(** * reals *)
Local Open Scope R_scope.

Lemma dl_ext (f g : R -> R) x l : (forall y, f y = g y) -> derivable_pt_lim f x l -> derivable_pt_lim g x l.
Proof. intros E H. apply (dl_local f g x l 1); auto. lra. Qed.

Lemma con_meaning_val env c : con_meaning env c = con_val (Rnum Rlit) Rbuiltins env c.
Proof. destruct c as [line e|k n]; [apply meaning_ev|reflexivity]. Qed.

Lemma meaning_frame env n x e : ~ In n (pars e) -> meaning (with_value env n x) e = meaning env e.
Proof.
  induction e; cbn [meaning pars]; intros H; auto.
  - unfold with_value. destruct (Z.eqb_spec n0 n); auto. exfalso; apply H; left; auto.
  - rewrite IHe; auto.
  - rewrite in_app_iff in H. rewrite IHe1, IHe2; tauto.
  - rewrite IHe; auto.
Qed.

Lemma con_fun_const env c n : ~ In n (con_pars c) -> forall x, con_fun env c n x = match con_meaning env c with Some v => v | None => 0 end.
Proof.
  intros H x. unfold con_fun. destruct c as [line e|k m]; simpl in *.
  - rewrite meaning_frame; auto.
  - unfold with_value. destruct (Z.eqb_spec m n); auto. tauto.
Qed.

(** after a successful calculation the stored derivative is the true one *)
Lemma filled_gradient (s s' : cstate R) cs : wf (ctab s) ->
  filled (Rnum Rlit) Rbuiltins s s' cs -> Forall (fun ac => con_ok (snd ac)) cs ->
  forall j a c n k x0, nth_error cs j = Some (a, c) -> con_meaning (env_of (ctab s)) c <> None ->
  con_smooth (env_of (ctab s)) c ->
  In n (con_pars c) -> parfind (ctab s) n = Some k -> is_free (ctab s) n = true -> getpar (ctab s) n = Ok x0 ->
  exists dx, mx_get (cdvdp s') j k = Ok dx /\ derivable_pt_lim (con_fun (env_of (ctab s)) c n) x0 dx.
Proof.
  intros W (_ & _ & _ & _ & _ & _ & _ & D) OK j a c n k x0 Ej V SM I P Fr G.
  destruct (D j a c Ej) as [St _]. unfold is_free in Fr. rewrite P in Fr.
  pose proof (Forall_nth_error _ _ _ _ OK Ej) as Oc. simpl in Oc.
  destruct c as [line e|kk m]; simpl in *.
  - destruct Oc as (O1 & O2 & O3). destruct (meaning (env_of (ctab s)) e) as [v|] eqn:Ev; [|congruence].
    destruct (parse_gradient (ctab s) line e v W O2 O3 Ev SM) as (d & used & P1 & P2).
    destruct St as (v' & d' & used' & Q1 & Q2). rewrite P1 in Q1. inversion Q1; subst v' d' used'.
    destruct (P2 n I) as (i & k' & y & A1 & A2 & A3 & A4 & A5). rewrite P in A1. inversion A1; subst k'.
    rewrite G in A3. inversion A3; subst y.
    destruct (nth_error (pfree (ctab s)) k) as [b|] eqn:Eb; [|discriminate]. subst b.
    specialize (Q2 i k A2 Eb). specialize (A4 eq_refl).
    destruct (mx_get (cdvdp s') j k) as [dx|x| |]; try discriminate. simpl in Q2. inversion Q2 as [Q3].
    exists dx. split; auto. rewrite (nth_error_nth d i 0 (eq_sym Q3)) in A4. exact A4.
  - destruct I as [->|[]]. exists (kpar_der (Rnum Rlit) kk x0). split; [apply St; auto|].
    assert (E : forall x, con_fun (env_of (ctab s)) (KPar kk n) n x = match kk with KIdent => x | KComp => 1 - x | KSqr => x * x end).
    { intros x. unfold con_fun, con_meaning, with_value. rewrite Z.eqb_refl. auto. }
    destruct kk; simpl.
    + eapply dl_ext; [intros x; symmetry; apply E|]. apply derivable_pt_lim_id.
    + eapply dl_ext; [intros x; symmetry; apply E|]. replace (Ropp 1) with (0 - 1) by lra.
      apply (derivable_pt_lim_minus (fct_cte 1) id). apply derivable_pt_lim_const. apply derivable_pt_lim_id.
    + eapply dl_ext; [intros x; symmetry; apply E|]. replace ((1 + 1) * x0) with (1 * id x0 + id x0 * 1) by (unfold id; lra).
      apply (derivable_pt_lim_mult id id). apply derivable_pt_lim_id. apply derivable_pt_lim_id.
Qed.

Definition ids_ok (c : con) : Prop := forall n, In n (con_pars c) -> (0 <= n < 4294967296)%Z.

Lemma parfind_inj (t : ptab R) n m k : (0 <= n < 4294967296)%Z -> (0 <= m < 4294967296)%Z ->
  parfind t n = Some k -> parfind t m = Some k -> n = m.
Proof.
  intros Hn Hm A B. unfold parfind in *. pose proof (find_pos_inj _ _ _ _ A B) as E.
  unfold u32 in E. rewrite !Z.mod_small in E; auto.
Qed.

Lemma gradient_history mem (h : list (uop R)) s' :
  Forall (fun ac => con_ok (snd ac) /\ ids_ok (snd ac)) (ucons h) -> NoDup (map fst (ucons h)) ->
  let s := crun (Rnum Rlit) Rbuiltins (cinit mem) (map to_cop h) in
  (forall a c, In (a, c) (ucons h) -> con_meaning (env_of (ctab s)) c <> None) ->
  fill_variables (Rnum Rlit) Rbuiltins s = (s', Ok tt) ->
  forall j a c n k x0, nth_error (ucons h) j = Some (a, c) -> con_smooth (env_of (ctab s)) c ->
  (0 <= n < 4294967296)%Z -> parfind (ctab s) n = Some k -> is_free (ctab s) n = true -> getpar (ctab s) n = Ok x0 ->
  exists dx, mx_get (cdvdp s') j k = Ok dx /\ derivable_pt_lim (con_fun (env_of (ctab s)) c n) x0 dx.
Proof.
  intros FO ND s V F j a c n k x0 Ej SM Rn P Fr G.
  assert (OK : Forall (fun ac => con_ok (snd ac)) (ucons h)).
  { eapply Forall_impl; [|exact FO]. simpl. tauto. }
  pose proof (dinv_run (Rnum Rlit) Rbuiltins mem h OK ND) as D. fold s in D.
  assert (D' := fill_variables_dinv _ _ s s' _ _ D F).
  destruct D as (W & M & TB & C & L1 & L2).
  destruct (fill_variables_ok (Rnum Rlit) Rbuiltins s (ucons h) W M TB) as (s2 & F2 & FI).
  { intros b d I. rewrite <- con_meaning_val. eauto. }
  assert (s2 = s') by congruence. subst s2.
  destruct (in_dec Z.eq_dec n (con_pars c)) as [I|NI].
  - eapply filled_gradient; eauto. eapply V. eapply nth_error_In; eauto.
  - assert (Lk : (k < length (pval (ctab s)))%nat).
    { unfold getpar in G. rewrite P in G. apply nth_error_Some. destruct (nth_error (pval (ctab s)) k); congruence. }
    pose proof FI as (T1 & T2 & T3 & T4 & T5 & T6 & T7 & T8).
    assert (Lj : (j < length (ucons h))%nat) by (apply nth_error_Some; congruence).
    destruct (mx_get_ok (cdvdp s') j k T5) as (x & Ex); try lia.
    exists x. split; auto. destruct D' as (_ & _ & _ & C' & _).
    assert (x = 0) as ->.
    { apply (C' j a c k x Ej Ex). rewrite T1. intros m Im Q. apply NI.
      rewrite (parfind_inj (ctab s) n m k); auto.
      pose proof (Forall_nth_error _ _ _ _ FO Ej) as [_ IO]. apply IO; auto. }
    eapply dl_ext; [intros y; symmetry; apply con_fun_const; auto|]. apply derivable_pt_lim_const.
Qed.
