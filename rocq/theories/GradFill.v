(** Constraints and their derivatives for given parameters. *)
From Coq Require Import List Arith ZArith Reals Bool Lia Lra FunctionalExtensionality.
From Verif Require Import Base RSum Util ParamModel ParamProof ParserModel ParserSpec ParserDeriv ParserProof MathModel MathSpec MathProof MatrixModel MatrixProof ConModel ConSpec ConProof ConHist ConReal GaussSpec PdfModel LayoutModel LayoutSpec DerivSpec DerivCalc TheoryModel TheorySpec TheoryMem ScaleSpec ScaleMem GradSpec RunFinal.
Import ListNotations.
Local Open Scope R_scope.
Notation Nm := (Rnum Rlit).

Section Fill.
Variable s : cstate R.
Variable cs : list (nat * con).
Hypothesis D : ConReal.dinv Nm s cs.
Let np := length (pval (ctab s)).

(** definedness does not depend on the values *)
Lemma env_any p q n : env_of (ctab (with_pars s p)) n = None -> env_of (ctab (with_pars s q)) n = None.
Proof. pose proof D as (W & _). rewrite !pars_env by auto. destruct (parfind (ctab s) n); cbn; congruence. Qed.
Lemma con_any p q c : con_meaning (env_of (ctab (with_pars s p))) c <> None -> con_meaning (env_of (ctab (with_pars s q))) c <> None.
Proof. intros H E. apply H. rewrite con_meaning_val in *. revert E. apply con_defined. intros n. apply env_any. Qed.
Lemma con_at_some p c : con_meaning (env_of (ctab (with_pars s p))) c <> None -> con_meaning (env_of (ctab (with_pars s p))) c = Some (con_at s c p).
Proof. unfold con_at. destruct (con_meaning _ c); congruence. Qed.

Definition vflags : list bool := map (fun ac => existsb (is_free (ctab s)) (con_pars (snd ac))) cs.
Hypothesis VAL : exists p, forall a c, In (a, c) cs -> con_meaning (env_of (ctab (with_pars s p))) c <> None.

Lemma fill_any p : exists s', fill_variables Nm Rbuiltins (with_pars s p) = (s', Ok tt) /\ filled Nm Rbuiltins (with_pars s p) s' cs /\ ConReal.dinv Nm s' cs /\ ctab s' = ctab (with_pars s p) /\
  (forall a, cmem s' a = mem_at s cs p a) /\ map cvar (cons_ s') = map fst cs /\ map cref (cons_ s') = vflags /\ mwf (cdvdp s') /\ mrows (cdvdp s') = length cs /\ mcols (cdvdp s') = np.
Proof.
  pose proof (pars_dinv s cs D p) as Dp. destruct Dp as (Wp & Mp & Tp & Cp & L1 & L2). pose proof D as (W & _).
  assert (V : forall a c, In (a, c) cs -> con_val Nm Rbuiltins (env_of (ctab (with_pars s p))) c = Some (con_at s c p)).
  { intros a c I. rewrite <- con_meaning_val. apply con_at_some. destruct VAL as (q & VQ). apply (con_any q). eapply VQ; eauto. }
  destruct (fill_variables_ok Nm Rbuiltins (with_pars s p) cs Wp Mp Tp) as (s' & F & FI). { intros a c I. rewrite (V a c I). discriminate. }
  exists s'. split; auto. split; auto. assert (D' : ConReal.dinv Nm s' cs) by (exact (fill_variables_dinv Nm Rbuiltins _ _ _ _ (pars_dinv s cs D p) F)). split; auto.
  pose proof FI as (T1 & T2 & T3 & T4 & T5 & T6 & T7 & T8). split; auto. split.
  { intros a. rewrite T3. unfold mem_at. destruct (last_con a cs) as [c|] eqn:E; auto. apply last_con_in in E. rewrite (V a c E). reflexivity. }
  destruct T2 as [T2 T2']. split. { clear - T2. induction T2 as [|e ac l l' [H _] _ IH]; simpl; auto. f_equal; auto. }
  split.
  { unfold vflags. assert (Q : forall j e ac, nth_error (cons_ s') j = Some e -> nth_error cs j = Some ac -> cref e = existsb (is_free (ctab s)) (con_pars (snd ac))).
    { intros j e [a c] E1 E2. rewrite (T4 j e a c E1 E2). unfold is_free, parfind. reflexivity. }
    clear - T2 Q. revert Q. induction T2 as [|e ac l l' _ _ IH]; intros Q; simpl; auto. f_equal. apply (Q 0%nat); auto. apply IH. intros j. apply (Q (S j)). }
  split; auto. split; auto. assert (NP : length (pval (ctab (with_pars s p))) = np) by (unfold with_pars; cbn; rewrite map_length, seq_length; auto). congruence.
Qed.

(** the column of a parameter in the derivative table *)
Lemma con_moves c n k p x : numbers_ok c -> In n (con_pars c) -> parfind (ctab s) n = Some k -> con_fun (env_of (ctab (with_pars s p))) c n x = con_at s c (moved p (S k) x).
Proof. intros NK I P. pose proof D as (W & _). exact (val_con s W c n k p x NK I P). Qed.
Lemma column_at p s' l v c addr : fill_variables Nm Rbuiltins (with_pars s p) = (s', Ok tt) -> filled Nm Rbuiltins (with_pars s p) s' cs -> ConReal.dinv Nm s' cs -> ctab s' = ctab (with_pars s p) ->
  mrows (cdvdp s') = length cs -> mcols (cdvdp s') = np -> NoDup (map fst cs) -> (forall a c, In (a, c) cs -> con_ok c /\ numbers_ok c /\ con_meaning (env_of (ctab (with_pars s p))) c <> None) ->
  enters addr s cs p l v c -> (1 <= l <= np)%nat /\
  exists dx, derivable_pt_lim (fun x => con_at s c (moved p l x)) (p l) dx /\
  forall j a c', nth_error cs j = Some (a, c') -> mx_get (cdvdp s') j (l - 1) = Ok (if (a =? addr v)%nat then dx else 0).
Proof.
  intros F FI D' T1 MR MC ND OK (Hl & Fr & I & (n & In1 & P) & SM & ON). pose proof D as (W & _).
  assert (Lk : (l - 1 < np)%nat). { unfold parfind in P. apply find_pos_lt in P. destruct W as (W1 & _). unfold np. lia. }
  split. lia. destruct (OK _ _ I) as (CO & NO & VA). pose proof (pars_dinv s cs D p) as (Wp & _).
  assert (COA : Forall (fun ac => con_ok (snd ac)) cs). { apply Forall_forall. intros [a k] J. apply (OK a k J). }
  assert (P' : parfind (ctab (with_pars s p)) n = Some (l - 1)%nat) by exact P.
  assert (FR : is_free (ctab (with_pars s p)) n = true).
  { unfold is_free. rewrite P'. unfold with_pars. cbn [ctab pfree]. unfold free_of in Fr. destruct l as [|l]; [discriminate|]. replace (S l - 1)%nat with l by lia. destruct (nth_error (pfree (ctab s)) l) as [b|] eqn:E. rewrite (nth_error_nth _ _ _ E) in Fr; auto. apply nth_error_None in E. rewrite nth_overflow in Fr by auto. discriminate. }
  assert (G : getpar (ctab (with_pars s p)) n = Ok (p l)).
  { pose proof (pars_env s W p n) as E. unfold env_of in E. rewrite P in E. cbn [option_map] in E. replace (S (l - 1)) with l in E by lia. destruct (getpar _ n); congruence. }
  apply In_nth_error in I as (j0 & J0).
  destruct (filled_gradient (with_pars s p) s' cs Wp FI COA j0 (addr v) c n (l - 1) (p l) J0) as (dx & E1 & E2); auto.
  exists dx. split.
  { apply (dlim_ext (con_fun (env_of (ctab (with_pars s p))) c n)); auto. intros x. rewrite (con_moves c n (l - 1) p x NO In1 P). replace (S (l - 1)) with l by lia. reflexivity. }
  intros j a c' J. destruct (Nat.eqb_spec a (addr v)) as [->|NE].
  - assert (j = j0). { rewrite NoDup_nth_error in ND. apply ND. rewrite map_length. apply nth_error_Some. congruence. rewrite (map_nth_error fst _ _ J), (map_nth_error fst _ _ J0). reflexivity. } subst j0. exact E1.
  - assert (Lj : (j < length cs)%nat) by (apply nth_error_Some; congruence). destruct D' as (_ & WD & _ & C' & _). destruct (mx_get_ok (cdvdp s') j (l - 1) WD) as (x & Ex); try lia. rewrite Ex. f_equal.
    apply (C' j a c' (l - 1)%nat x J Ex). rewrite T1. intros m M Q. apply NE. apply (ON a c'). eapply nth_error_In; eauto. exists m. split; auto.
Qed.
End Fill.
