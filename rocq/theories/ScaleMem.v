(** Memory and derivatives of the constraints for all values of the parameters. *)
From Coq Require Import List Arith ZArith Reals Bool Lia Lra FunctionalExtensionality.
From Verif Require Import Base RSum Util ParamModel ParamProof ParserModel ParserSpec ParserDeriv MathModel MathSpec MathProof MatrixModel MatrixProof ConModel ConSpec ConProof ConHist ConReal GaussSpec PdfModel LayoutModel LayoutSpec DerivSpec DerivCalc TheoryModel TheorySpec TheoryMem ScaleSpec.
Import ListNotations.
Local Open Scope R_scope.

Lemma meaning_ext env env' e : (forall n, In n (pars e) -> env n = env' n) -> meaning env e = meaning env' e.
Proof.
  induction e; cbn [meaning pars]; intros H; auto.
  - apply H; left; auto.
  - rewrite IHe; auto.
  - rewrite IHe1, IHe2; auto; intros; apply H; apply in_app_iff; auto.
  - rewrite IHe; auto.
Qed.
Lemma con_ext env env' c : (forall n, In n (con_pars c) -> env n = env' n) -> con_meaning env c = con_meaning env' c.
Proof. destruct c as [line e|k n]; simpl; intros H. apply meaning_ext; auto. rewrite H; auto. Qed.

Lemma S1_ext n f g : (forall l, (1 <= l <= n)%nat -> f l = g l) -> S1 n f = S1 n g.
Proof. intros H. apply rsum_ext. intros i Hi. apply H. lia. Qed.
Lemma S1_plus n f g : S1 n (fun l => f l + g l) = S1 n f + S1 n g. Proof. apply rsum_plus. Qed.
Lemma S1_minus n f g : S1 n (fun l => f l - g l) = S1 n f - S1 n g. Proof. apply rsum_minus. Qed.
Lemma S1_scal n c f : S1 n (fun l => c * f l) = c * S1 n f. Proof. apply rsum_scal. Qed.
Lemma S1_zero n f : (forall l, (1 <= l <= n)%nat -> f l = 0) -> S1 n f = 0.
Proof. intros H. apply rsum_zero. intros i Hi. apply H. lia. Qed.
Lemma S1_one n l f : (1 <= l <= n)%nat -> (forall m, (1 <= m <= n)%nat -> m <> l -> f m = 0) -> S1 n f = f l.
Proof.
  revert l. unfold S1. induction n as [|n IH]; intros l Hl H. lia. cbn [rsum]. destruct (Nat.eq_dec l (S n)) as [->|NE].
  - rewrite rsum_zero. ring. intros i Hi. apply H; lia.
  - rewrite (IH l) by (try lia; intros; apply H; lia). rewrite (H (S n)) by lia. ring.
Qed.

Section Vals.
Variable s : cstate R.
Hypothesis W : wf (ctab s).
Let np := length (pval (ctab s)).

Lemma pars_env p n : env_of (ctab (with_pars s p)) n = option_map (fun k => p (S k)) (parfind (ctab s) n).
Proof.
  unfold env_of, getpar, with_pars. cbn [ctab]. unfold parfind. cbn [pid pval]. destruct (find_pos (u32 n) (pid (ctab s))) as [k|] eqn:E; auto. cbn [option_map].
  pose proof (find_pos_lt _ _ _ E) as L. destruct W as (W1 & _). rewrite <- W1 in L. rewrite (map_nth_error p k (seq 1 (length (pval (ctab s)))) (d := S k)). reflexivity.
  rewrite (nth_error_nth' _ 0%nat) by (rewrite seq_length; auto). rewrite seq_nth by auto. reflexivity.
Qed.
Definition val (c : con) (p : nat -> R) : R := match con_meaning (env_of (ctab (with_pars s p))) c with Some v => v | None => 0 end.
Definition slope (c : con) (l : nat) : R := val c (unit_at l) - val c (fun _ => 0).
Lemma affine_form c : affine s c -> exists w0 w, (forall p, val c p = w0 + S1 np (fun l => w l * p l)) /\ forall l, (1 <= l <= np)%nat -> slope c l = w l.
Proof.
  intros (w0 & w & H). assert (E : forall p, val c p = w0 + S1 np (fun l => w l * p l)). { intros p. unfold val. destruct (H p) as [_ ->]. reflexivity. }
  exists w0, w. split; auto. intros l Hl. unfold slope. rewrite !E. rewrite (S1_one np l (fun l0 => w l0 * unit_at l l0)), (S1_zero np (fun l0 => w l0 * 0)); auto.
  - unfold unit_at. rewrite Nat.eqb_refl. ring.
  - intros; ring.
  - intros m _ NE. unfold unit_at. destruct (Nat.eqb_spec m l); [contradiction|ring].
Qed.
Lemma affine_val c p : affine s c -> con_meaning (env_of (ctab (with_pars s p))) c = Some (val c p).
Proof. intros (w0 & w & H). unfold val. destruct (H p) as [_ ->]. reflexivity. Qed.
Lemma val_moves c p q : affine s c -> val c p - val c q = S1 np (fun l => slope c l * (p l - q l)).
Proof.
  intros A. destruct (affine_form c A) as (w0 & w & E & F). rewrite !E. rewrite (S1_ext np (fun l => slope c l * (p l - q l)) (fun l => w l * p l - w l * q l)). rewrite S1_minus. ring. intros l Hl. rewrite F by auto. ring.
Qed.
Lemma val_agree c p q : (forall n k, In n (con_pars c) -> parfind (ctab s) n = Some k -> p (S k) = q (S k)) -> val c p = val c q.
Proof.
  intros H. unfold val. rewrite (con_ext _ (env_of (ctab (with_pars s q)))). reflexivity. intros n I. rewrite !pars_env. destruct (parfind (ctab s) n) as [k|] eqn:E; auto. cbn [option_map]. f_equal. eauto.
Qed.
(** the value as a function of the parameter with number n *)
Lemma val_con c n k p x : numbers_ok c -> In n (con_pars c) -> parfind (ctab s) n = Some k ->
  con_fun (env_of (ctab (with_pars s p))) c n x = val c (fun m => if (m =? S k)%nat then x else p m).
Proof.
  intros NK I P. unfold con_fun, val. rewrite (con_ext _ (env_of (ctab (with_pars s (fun m => if (m =? S k)%nat then x else p m))))). reflexivity.
  intros m J. rewrite pars_env. unfold with_value. destruct (Z.eqb_spec m n) as [->|NE].
  - rewrite P. cbn [option_map]. rewrite Nat.eqb_refl. reflexivity.
  - rewrite pars_env. destruct (parfind (ctab s) m) as [k'|] eqn:Q; auto. cbn [option_map]. destruct (Nat.eqb_spec (S k') (S k)) as [E|]; auto. exfalso. apply NE. inversion E; subst k'. eapply parfind_inj; eauto.
Qed.
Lemma val_slope c l p x0 : affine s c -> (1 <= l <= np)%nat -> derivable_pt_lim (fun x => val c (fun m => if (m =? l)%nat then x else p m)) x0 (slope c l).
Proof.
  intros A Hl. apply dlim_ext with (f := fun x => (val c p - slope c l * p l) + x * slope c l).
  - intros x. pose proof (val_moves c (fun m => if (m =? l)%nat then x else p m) p A) as E. rewrite (S1_one np l) in E; auto.
    + rewrite Nat.eqb_refl in E. lra.
    + intros m _ NE. destruct (Nat.eqb_spec m l); [contradiction|ring].
  - eapply dl_eq. apply derivable_pt_lim_plus. apply dlim_const. apply dmc. apply did. ring.
Qed.
Lemma slope_none c l : (forall n, In n (con_pars c) -> parfind (ctab s) n <> Some (l - 1)%nat) -> (1 <= l)%nat -> slope c l = 0.
Proof.
  intros H L. unfold slope. rewrite (val_agree c (unit_at l) (fun _ => 0)). ring. intros n k I P. unfold unit_at. destruct (Nat.eqb_spec (S k) l); auto. subst l. exfalso. apply (H n I). rewrite P. f_equal. lia.
Qed.
End Vals.

Section Fill.
Variable s : cstate R.
Variable cs : list (nat * con).
Notation Nm := (Rnum Rlit).
Hypothesis D : ConReal.dinv Nm s cs.
Hypothesis NK : forall a c, In (a, c) cs -> con_ok c /\ numbers_ok c /\ affine s c.
Let np := length (pval (ctab s)).

Definition vrefs : list bool := map (fun ac => existsb (is_free (ctab s)) (con_pars (snd ac))) cs.

Lemma pars_dinv p : ConReal.dinv Nm (with_pars s p) cs.
Proof.
  destruct D as (A & B & C & E & F & G). unfold ConReal.dinv, with_pars, wf in *. cbn [ctab pval pid pfree cdvdp cons_]. rewrite map_length, seq_length. repeat (split; try tauto).
Qed.
Lemma fill_at p : exists s', fill_variables Nm Rbuiltins (with_pars s p) = (s', Ok tt) /\ ConReal.dinv Nm s' cs /\ ctab s' = ctab (with_pars s p) /\
  (forall a, cmem s' a = match last_con a cs with Some c => val s c p | None => cmem s a end) /\
  map cvar (cons_ s') = map fst cs /\ map cref (cons_ s') = vrefs /\ mwf (cdvdp s') /\ mrows (cdvdp s') = length cs /\ mcols (cdvdp s') = np /\
  forall j a c l, nth_error cs j = Some (a, c) -> (1 <= l <= np)%nat -> nth (l - 1) (pfree (ctab s)) false = true -> mx_get (cdvdp s') j (l - 1) = Ok (slope s c l).
Proof.
  pose proof (pars_dinv p) as Dp. destruct Dp as (Wp & Mp & Tp & Cp & L1 & L2). pose proof D as (W & _).
  assert (V : forall a c, In (a, c) cs -> con_val Nm Rbuiltins (env_of (ctab (with_pars s p))) c = Some (val s c p)).
  { intros a c I. destruct (NK _ _ I) as (_ & _ & A). rewrite <- con_meaning_val. apply affine_val; auto. }
  destruct (fill_variables_ok Nm Rbuiltins (with_pars s p) cs Wp Mp Tp) as (s' & F & FI). { intros a c I. rewrite (V a c I). discriminate. }
  exists s'. split; auto. assert (D' : ConReal.dinv Nm s' cs) by (exact (fill_variables_dinv Nm Rbuiltins _ _ _ _ (pars_dinv p) F)). split; auto.
  pose proof FI as (T1 & T2 & T3 & T4 & T5 & T6 & T7 & T8). split; auto. split.
  { intros a. rewrite T3. destruct (last_con a cs) as [c|] eqn:E; auto. apply last_con_in in E. rewrite (V a c E). reflexivity. }
  destruct T2 as [T2 T2']. split. { clear - T2. induction T2 as [|e ac l l' [H _] _ IH]; simpl; auto. f_equal; auto. }
  split.
  { unfold vrefs. assert (Q : forall j e ac, nth_error (cons_ s') j = Some e -> nth_error cs j = Some ac -> cref e = existsb (is_free (ctab s)) (con_pars (snd ac))).
    { intros j e [a c] E1 E2. rewrite (T4 j e a c E1 E2). unfold is_free, parfind. reflexivity. }
    clear - T2 Q. revert Q. induction T2 as [|e ac l l' _ _ IH]; intros Q; simpl; auto. f_equal. apply (Q 0%nat); auto. apply IH. intros j. apply (Q (S j)). }
  split; auto. split; auto. assert (NP : length (pval (ctab (with_pars s p))) = np) by (unfold with_pars; cbn; rewrite map_length, seq_length; auto). split. congruence.
  intros j a c l Ej Hl Fr. pose proof (nth_error_In _ _ Ej) as I. destruct (NK _ _ I) as (CO & NO & A).
  assert (Lj : (j < length cs)%nat) by (apply nth_error_Some; congruence).
  destruct (existsb (fun n => match parfind (ctab s) n with Some k => (k =? l - 1)%nat | None => false end) (con_pars c)) eqn:X.
  - apply existsb_exists in X as (n & In1 & X). destruct (parfind (ctab s) n) as [k|] eqn:P; [|discriminate]. apply Nat.eqb_eq in X. subst k.
    assert (P' : parfind (ctab (with_pars s p)) n = Some (l - 1)%nat) by exact P.
    assert (FR : is_free (ctab (with_pars s p)) n = true).
    { unfold is_free. rewrite P'. unfold with_pars. cbn [ctab pfree]. destruct (nth_error (pfree (ctab s)) (l - 1)) as [b|] eqn:E. rewrite (nth_error_nth _ _ _ E) in Fr; auto. apply nth_error_None in E. rewrite nth_overflow in Fr by auto. discriminate. }
    assert (G : getpar (ctab (with_pars s p)) n = Ok (p l)).
    { pose proof (pars_env s W p n) as E. unfold env_of in E. rewrite P in E. cbn [option_map] in E. replace (S (l - 1)) with l in E by lia. destruct (getpar _ n); congruence. }
    destruct (filled_gradient (with_pars s p) s' cs Wp FI T2' j a c n (l - 1) (p l) Ej) as (dx & E1 & E2); auto.
    { rewrite con_meaning_val, (V a c I). discriminate. }
    { destruct A as (w0 & w & A). apply A. }
    rewrite E1. f_equal. apply (uniqueness_limite _ _ _ _ E2).
    apply (dlim_ext (fun x => val s c (fun m => if (m =? l)%nat then x else p m))). { intros x. rewrite (val_con s W c n (l - 1) p x NO In1 P). replace (S (l - 1)) with l by lia. reflexivity. }
    apply val_slope; auto.
  - destruct (mx_get_ok (cdvdp s') j (l - 1) T5) as (x & Ex); try lia. rewrite Ex. f_equal.
    assert (NO1 : forall n, In n (con_pars c) -> parfind (ctab s) n <> Some (l - 1)%nat).
    { intros n In1 P. apply not_true_iff_false in X. apply X. apply existsb_exists. exists n. split; auto. rewrite P. apply Nat.eqb_refl. }
    rewrite slope_none by (auto; lia). destruct D' as (_ & _ & _ & C' & _). apply (C' j a c (l - 1)%nat x Ej Ex). rewrite T1. exact NO1.
Qed.
End Fill.
