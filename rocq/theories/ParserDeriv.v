(** Derivative vectors of formulas over the real numbers (C07). *)
From Coq Require Import List ZArith Ascii String Bool Lia Reals Lra.
From Verif Require Import Base ParamModel ParamProof ParserModel ParserLex ParserSafe ParserSpec ParserGram ParserProof.
Import ListNotations.
Local Open Scope R_scope.

(** double idealised as the real numbers; [lit] converts the literals *)
Definition Rnum (lit : Z -> Z -> option R) : numops R :=
  mkNum R 0 1 Rplus Rminus Rmult Rdiv Ropp lit.

Section Deriv.
Variable lit : Z -> Z -> option R.
Variable builtins : list (builtin R).
Notation N := (Rnum lit).

(** parameter n replaced by x *)
Definition with_par (env : Z -> option R) (n : Z) (x : R) (m : Z) : option R :=
  if Z.eqb m n then Some x else env m.

Definition val (o : option R) : R := match o with Some v => v | None => 0 end.

(** value of the tree as a function of parameter n *)
Definition as_fun (env : Z -> option R) (e : fexp) (n : Z) (x : R) : R :=
  val (ev N builtins (with_par env n x) e).

(** every quotient has a nonzero denominator and every built-in is
    differentiable, with the tabulated derivative, where it is applied *)
Fixpoint regular (env : Z -> option R) (e : fexp) : Prop :=
  match e with
  | ELit _ _ | EPar _ => True
  | ENeg a => regular env a
  | EBin c a b => regular env a /\ regular env b /\
                  (c = "/"%char -> val (ev N builtins env b) <> 0)
  | ECall f a => regular env a /\
                 forall b, find_builtin builtins f = Some b ->
                   derivable_pt_lim (bfun b) (val (ev N builtins env a)) (bder b (val (ev N builtins env a)))
  end.

Definition look (i : nat) (d : list R) : R := nth i d 0.

Lemma look_nil i : look i [] = 0.
Proof. destruct i; reflexivity. Qed.

Lemma look_map i f d : (i < List.length d)%nat -> look i (map f d) = f (look i d).
Proof.
  unfold look. intros. rewrite nth_indep with (d' := f 0) by (rewrite map_length; auto).
  apply map_nth.
Qed.

Lemma look_map2 i (f : R -> R -> R) a b : (i < List.length a)%nat -> (i < List.length b)%nat ->
  look i (map2 f a b) = f (look i a) (look i b).
Proof.
  revert a b; induction i; destruct a, b; simpl; intros; try lia; auto.
  unfold look in *. simpl. apply IHi; simpl in *; lia.
Qed.

Lemma look_zero n i : look i (repeat 0 n) = 0.
Proof. unfold look. revert i; induction n; destruct i; simpl; auto. Qed.

Lemma dmap_look (s : pstate R) f d d' i : (i < nused s)%nat -> f 0 = 0 -> dmap s f d = Ok d' -> look i d' = f (look i d).
Proof.
  unfold dmap. intros L F H. destruct d as [|x d]. inversion H. rewrite look_nil; auto.
  destruct (Nat.eqb_spec (List.length (x :: d)) (nused s)); [|discriminate].
  assert (d' = map f (x :: d)) as -> by congruence.
  apply look_map. rewrite e. lia.
Qed.

Lemma dacc_look (s : pstate R) f base d b i : (i < nused s)%nat -> (forall a, f a 0 = a) ->
  dacc s f base d = Ok b -> look i b = f (look i base) (look i d).
Proof.
  unfold dacc. intros L F H. destruct d as [|x d]. inversion H. rewrite look_nil; auto.
  destruct (Nat.eqb_spec (List.length (x :: d)) (nused s)); simpl in H; [|discriminate].
  destruct (Nat.eqb_spec (List.length base) (nused s)); simpl in H; [|discriminate].
  assert (b = map2 f base (x :: d)) as -> by congruence.
  apply look_map2. lia. rewrite e. lia.
Qed.

Definition dop (c : ascii) (v1 x1 v2 x2 : R) : R :=
  if Ascii.eqb c "+" then x1 + x2
  else if Ascii.eqb c "-" then x1 - x2
  else if Ascii.eqb c "*" then x1 * v2 + v1 * x2
  else x1 / v2 - v1 * x2 / (v2 * v2).

Lemma binop_look (s : pstate R) c v1 d1 v2 d2 v d i : deriv s = true -> (i < nused s)%nat ->
  binop N s c v1 d1 v2 d2 = Ok (v, d) ->
  look i d = dop c v1 (look i d1) v2 (look i d2).
Proof.
  intros D L H. unfold binop in H. rewrite D in H. cbn [negb] in H.
  set (base := match d1, d2 with [], [] => [] | _, _ => dzero N s end) in *.
  assert (B0 : look i base = 0).
  { subst base. destruct d1, d2; try apply look_zero. apply look_nil. }
  set (start := match d1 with [] => base | _ => d1 end) in *.
  assert (S0 : look i start = look i d1).
  { subst start. destruct d1; auto. rewrite B0, look_nil. auto. }
  unfold dop. cbn [n_add n_sub n_mul n_div Rnum] in H.
  destruct (Ascii.eqb c "+"); [|destruct (Ascii.eqb c "-"); [|destruct (Ascii.eqb c "*")]].
  - apply omap_ok in H as (x & H & E). inversion E; subst.
    apply dacc_look with (i := i) in H; auto. rewrite H, S0; auto. intros; ring.
  - apply omap_ok in H as (x & H & E). inversion E; subst.
    apply dacc_look with (i := i) in H; auto. rewrite H, S0; auto. intros; ring.
  - apply omap_ok in H as (x & H & E). inversion E; subst. apply obind_ok in H as (y & H1 & H2).
    apply dacc_look with (i := i) in H1; auto. 2: intros; ring.
    apply dacc_look with (i := i) in H2; auto. 2: intros; ring.
    rewrite H2, H1, B0. ring.
  - apply omap_ok in H as (x & H & E). inversion E; subst. apply obind_ok in H as (y & H1 & H2).
    apply dacc_look with (i := i) in H1; auto. 2: intros; unfold Rdiv; ring.
    apply dacc_look with (i := i) in H2; auto. 2: intros; unfold Rdiv; ring.
    rewrite H2, H1, B0. ring.
Qed.

(** definedness does not depend on the value of a parameter *)
Lemma ev_with env n x e v : ev N builtins env e = Some v -> ev N builtins (with_par env n x) e <> None.
Proof.
  revert v; induction e; simpl; intros v H; try congruence.
  - unfold with_par. destruct (Z.eqb n0 n); congruence.
  - destruct (ev N builtins env e); [|discriminate]. specialize (IHe _ eq_refl).
    destruct (ev N builtins (with_par env n x) e); simpl; congruence.
  - destruct (ev N builtins env e1); [|discriminate]. specialize (IHe1 _ eq_refl).
    destruct (ev N builtins env e2); [|discriminate]. specialize (IHe2 _ eq_refl).
    destruct (ev N builtins (with_par env n x) e1); [|congruence].
    destruct (ev N builtins (with_par env n x) e2); [|congruence].
    destruct (Ascii.eqb op "+"), (Ascii.eqb op "-"), (Ascii.eqb op "*"), (Ascii.eqb op "/"); congruence.
  - destruct (find_builtin builtins f); [|discriminate].
    destruct (ev N builtins env e); [|discriminate]. specialize (IHe _ eq_refl).
    destruct (ev N builtins (with_par env n x) e); congruence.
Qed.

Lemma ev_same env n x e v : env n = Some x -> ev N builtins env e = Some v ->
  ev N builtins (with_par env n x) e = Some v.
Proof.
  intros E. revert v; induction e; simpl; intros v H; auto.
  - unfold with_par. destruct (Z.eqb_spec n0 n); congruence.
  - destruct (ev N builtins env e); [|discriminate]. rewrite (IHe _ eq_refl). auto.
  - destruct (ev N builtins env e1); [|discriminate].
    destruct (ev N builtins env e2); [|discriminate].
    rewrite (IHe1 _ eq_refl), (IHe2 _ eq_refl). auto.
  - destruct (find_builtin builtins f); [|discriminate].
    destruct (ev N builtins env e); [|discriminate]. rewrite (IHe _ eq_refl). auto.
Qed.

Lemma as_fun_at env n x e v : env n = Some x -> ev N builtins env e = Some v -> as_fun env e n x = v.
Proof. intros A B. unfold as_fun. rewrite (ev_same _ _ _ _ _ A B). auto. Qed.

Lemma dlim_ext f g x l : (forall y, f y = g y) -> derivable_pt_lim f x l -> derivable_pt_lim g x l.
Proof.
  intros E H eps He. destruct (H eps He) as [dd K]. exists dd. intros h Hh Hd.
  rewrite <- !E. auto.
Qed.

Lemma dlim_const k x : derivable_pt_lim (fun _ => k) x 0.
Proof. apply (derivable_pt_lim_const k x). Qed.

Lemma ad_fst P (s : pstate R) env e v d w :
  (forall m, In m (pars e) -> option_map fst (P m) = env m) ->
  ad N builtins P s e = Ok (v, d) -> ev N builtins env e = Some w -> v = w.
Proof.
  revert v d w; induction e; intros v d w PE AD EV; simpl in AD, EV, PE.
  - destruct (lit m e); congruence.
  - specialize (PE n (or_introl eq_refl)). destruct (P n) as [[a b]|]; [|discriminate].
    inversion AD; subst. simpl in PE. congruence.
  - apply obind_ok in AD as ([v0 d0] & A1 & A2). apply omap_ok in A2 as (d' & A2 & A3). inversion A3; subst.
    destruct (ev N builtins env e) as [q|]; [|discriminate]. inversion EV; subst.
    rewrite (IHe _ _ _ PE A1 eq_refl). auto.
  - apply obind_ok in AD as ([v1 d1] & A1 & A2). apply obind_ok in A2 as ([v2 d2] & A2 & A3).
    destruct (ev N builtins env e1) as [q1|]; [|discriminate].
    destruct (ev N builtins env e2) as [q2|]; [|discriminate].
    apply binop_value in A3.
    assert (v1 = q1) by (eapply IHe1; eauto; intros; apply PE; apply in_or_app; auto).
    assert (v2 = q2) by (eapply IHe2; eauto; intros; apply PE; apply in_or_app; auto).
    subst. destruct (Ascii.eqb op "+"), (Ascii.eqb op "-"), (Ascii.eqb op "*"), (Ascii.eqb op "/");
      inversion EV; auto.
  - destruct (find_builtin builtins f) as [b|]; [|discriminate].
    apply obind_ok in AD as ([v0 d0] & A1 & A2). apply omap_ok in A2 as (d' & A2 & A3). inversion A3; subst.
    destruct (ev N builtins env e) as [q|]; [|discriminate]. inversion EV; subst.
    rewrite (IHe _ _ _ PE A1 eq_refl). auto.
Qed.

Lemma ad_deriv P (s : pstate R) env n x0 i e v d :
  deriv s = true -> (i < nused s)%nat -> env n = Some x0 ->
  (forall m, In m (pars e) -> option_map fst (P m) = env m) ->
  (forall m y, In m (pars e) -> P m = Some y -> look i (snd y) = if Z.eqb m n then 1 else 0) ->
  ad N builtins P s e = Ok (v, d) -> ev N builtins env e = Some v -> regular env e ->
  derivable_pt_lim (as_fun env e n) x0 (look i d).
Proof.
  intros D L EN. revert v d. induction e; intros v d PE PL AD EV RG.
  - simpl in *. destruct (lit m e) as [q|] eqn:El; inversion AD; subst. rewrite look_nil.
    eapply dlim_ext; [|apply (dlim_const v)]. intros. unfold as_fun. simpl. rewrite El. auto.
  - simpl in *. destruct (P n0) as [y|] eqn:EP; inversion AD; subst.
    specialize (PL n0 (v, d) (or_introl eq_refl) EP). simpl in PL. rewrite PL.
    unfold as_fun, with_par. simpl. destruct (Z.eqb_spec n0 n).
    + apply derivable_pt_lim_id.
    + apply dlim_const.
  - simpl in AD, EV, RG. apply obind_ok in AD as ([v0 d0] & A1 & A2). apply omap_ok in A2 as (d' & A2 & A3).
    inversion A3; subst.
    destruct (ev N builtins env e) as [q|] eqn:Eq; [|discriminate].
    assert (v0 = q) by exact (ad_fst P s env e _ _ _ PE A1 Eq). subst v0.
    rewrite (dmap_look _ _ _ _ _ L (Ropp_0) A2).
    specialize (IHe q d0 PE PL A1 eq_refl RG).
    eapply dlim_ext; [|apply (derivable_pt_lim_opp _ _ _ IHe)].
    intros y. unfold opp_fct, as_fun. simpl.
    pose proof (ev_with env n y e q Eq). destruct (ev N builtins (with_par env n y) e); simpl; congruence.
  - simpl in AD, EV, RG. apply obind_ok in AD as ([v1 d1] & A1 & A2). apply obind_ok in A2 as ([v2 d2] & A2 & A3).
    destruct (ev N builtins env e1) as [q1|] eqn:E1; [|discriminate].
    destruct (ev N builtins env e2) as [q2|] eqn:E2; [|discriminate].
    destruct RG as (R1 & R2 & R3). simpl in R3.
    assert (W1 : forall y, ev N builtins (with_par env n y) e1 <> None) by (intros; eapply ev_with; eauto).
    assert (W2 : forall y, ev N builtins (with_par env n y) e2 <> None) by (intros; eapply ev_with; eauto).
    assert (PE1 : forall m, In m (pars e1) -> option_map fst (P m) = env m) by (intros; apply PE; apply in_or_app; auto).
    assert (PE2 : forall m, In m (pars e2) -> option_map fst (P m) = env m) by (intros; apply PE; apply in_or_app; auto).
    assert (v1 = q1) by exact (ad_fst _ _ _ _ _ _ _ PE1 A1 E1). assert (v2 = q2) by exact (ad_fst _ _ _ _ _ _ _ PE2 A2 E2). subst q1 q2.
    specialize (IHe1 v1 d1 PE1 ltac:(intros; apply PL; auto; apply in_or_app; auto) A1 eq_refl R1).
    specialize (IHe2 v2 d2 PE2 ltac:(intros; apply PL; auto; apply in_or_app; auto) A2 eq_refl R2).
    rewrite (binop_look _ _ _ _ _ _ _ _ _ D L A3).
    pose proof (as_fun_at env n x0 e1 v1 EN E1) as F1.
    pose proof (as_fun_at env n x0 e2 v2 EN E2) as F2.
    assert (AF : forall y, as_fun env (EBin op e1 e2) n y =
       if Ascii.eqb op "+" then as_fun env e1 n y + as_fun env e2 n y
       else if Ascii.eqb op "-" then as_fun env e1 n y - as_fun env e2 n y
       else if Ascii.eqb op "*" then as_fun env e1 n y * as_fun env e2 n y
       else if Ascii.eqb op "/" then as_fun env e1 n y / as_fun env e2 n y else 0).
    { intros y. unfold as_fun. simpl. specialize (W1 y). specialize (W2 y).
      destruct (ev N builtins (with_par env n y) e1); [|congruence].
      destruct (ev N builtins (with_par env n y) e2); [|congruence].
      destruct (Ascii.eqb op "+"), (Ascii.eqb op "-"), (Ascii.eqb op "*"), (Ascii.eqb op "/"); auto. }
    unfold dop.
    destruct (Ascii.eqb op "+").
    { eapply dlim_ext; [intros y; symmetry; apply AF|]. apply (derivable_pt_lim_plus _ _ _ _ _ IHe1 IHe2). }
    destruct (Ascii.eqb op "-").
    { eapply dlim_ext; [intros y; symmetry; apply AF|]. apply (derivable_pt_lim_minus _ _ _ _ _ IHe1 IHe2). }
    destruct (Ascii.eqb op "*").
    { eapply dlim_ext; [intros y; symmetry; apply AF|].
      pose proof (derivable_pt_lim_mult _ _ _ _ _ IHe1 IHe2) as M. rewrite F1, F2 in M. exact M. }
    destruct (Ascii.eqb_spec op "/"); [|discriminate].
    specialize (R3 e).
    eapply dlim_ext; [intros y; symmetry; apply AF|].
    assert (NZ : as_fun env e2 n x0 <> 0) by congruence.
    pose proof (derivable_pt_lim_div _ _ _ _ _ IHe1 IHe2 NZ) as M. rewrite F1, F2 in M.
    replace (look i d1 / v2 - v1 * look i d2 / (v2 * v2)) with ((look i d1 * v2 - look i d2 * v1) / Rsqr v2).
    exact M. unfold Rsqr. field. congruence.
  - simpl in AD, EV, RG. destruct (find_builtin builtins f) as [b|] eqn:Eb; [|discriminate].
    apply obind_ok in AD as ([v0 d0] & A1 & A2). apply omap_ok in A2 as (d' & A2 & A3).
    inversion A3; subst.
    destruct (ev N builtins env e) as [q|] eqn:Eq; [|discriminate].
    assert (v0 = q) by exact (ad_fst P s env e _ _ _ PE A1 Eq). subst v0.
    destruct RG as [R1 R2]. specialize (R2 b eq_refl). simpl in R2.
    rewrite (dmap_look _ _ _ _ _ L (Rmult_0_r _) A2).
    specialize (IHe q d0 PE PL A1 eq_refl R1).
    pose proof (as_fun_at env n x0 e q EN Eq) as F1. rewrite <- F1 in R2.
    pose proof (derivable_pt_lim_comp _ _ _ _ _ IHe R2) as M. rewrite F1 in M.
    eapply dlim_ext; [|exact M].
    intros y. unfold comp, as_fun. simpl. rewrite Eb.
    pose proof (ev_with env n y e q Eq). destruct (ev N builtins (with_par env n y) e); simpl; congruence.
Qed.

(** entries of fixed parameters stay zero *)
Lemma ad_zero P (s : pstate R) i e v d :
  deriv s = true -> (i < nused s)%nat ->
  (forall m y, In m (pars e) -> P m = Some y -> look i (snd y) = 0) ->
  ad N builtins P s e = Ok (v, d) -> look i d = 0.
Proof.
  intros D L. revert v d. induction e; intros v d PL AD; simpl in AD, PL.
  - destruct (lit m e); inversion AD; subst. apply look_nil.
  - destruct (P n) as [y|] eqn:EP; inversion AD; subst. apply (PL n (v, d)); auto.
  - apply obind_ok in AD as ([v0 d0] & A1 & A2). apply omap_ok in A2 as (d' & A2 & A3). inversion A3; subst.
    rewrite (dmap_look _ _ _ _ _ L (Ropp_0) A2). rewrite (IHe _ _ PL A1). simpl. ring.
  - apply obind_ok in AD as ([v1 d1] & A1 & A2). apply obind_ok in A2 as ([v2 d2] & A2 & A3).
    rewrite (binop_look _ _ _ _ _ _ _ _ _ D L A3).
    rewrite (IHe1 v1 d1) by (auto; intros; eapply PL; eauto; apply in_or_app; auto).
    rewrite (IHe2 v2 d2) by (auto; intros; eapply PL; eauto; apply in_or_app; auto).
    unfold dop, Rdiv. repeat match goal with |- context [if ?c then _ else _] => destruct c end; ring.
  - destruct (find_builtin builtins f) as [b|]; [|discriminate].
    apply obind_ok in AD as ([v0 d0] & A1 & A2). apply omap_ok in A2 as (d' & A2 & A3). inversion A3; subst.
    rewrite (dmap_look _ _ _ _ _ L (Rmult_0_r _) A2). rewrite (IHe _ _ PL A1). simpl. ring.
Qed.

Lemma gram_range :
  (forall l e, gfac l e -> forall n, In n (pars e) -> (0 <= n <= 2147483647)%Z) /\
  (forall l e, gterm l e -> forall n, In n (pars e) -> (0 <= n <= 2147483647)%Z) /\
  (forall l e, gexp l e -> forall n, In n (pars e) -> (0 <= n <= 2147483647)%Z).
Proof.
  apply g_mutind; simpl; intros; try tauto; eauto.
  - destruct H as [<-|[]]. split; auto. rewrite decval_digits. apply digits_val_nonneg; auto.
  - apply in_app_or in H1. destruct H1; eauto.
  - apply in_app_or in H1. destruct H1; eauto.
Qed.

Lemma find_pos_val n l i : find_pos n l = Some i -> nth_error l i = Some n.
Proof.
  revert i; induction l; simpl; intros i H; [discriminate|].
  destruct (Z.eqb_spec a n). inversion H; subst; auto.
  destruct (find_pos n l); inversion H; subst. simpl. auto.
Qed.

Lemma parfind_inj (t : ptab R) n m k : (0 <= n <= 2147483647)%Z -> (0 <= m <= 2147483647)%Z ->
  parfind t n = Some k -> parfind t m = Some k -> n = m.
Proof.
  unfold parfind, u32. intros A B C D. apply find_pos_val in C, D. rewrite C in D. inversion D.
  rewrite !Z.mod_small in H0; lia.
Qed.

Lemma look_unit n i j : (i < n)%nat -> look i (unit_vec N n j) = if (i =? j)%nat then 1 else 0.
Proof.
  intros H. unfold look, unit_vec.
  set (f := fun j0 : nat => if (j0 =? j)%nat then n_one N else n_zero N).
  rewrite nth_indep with (d' := f 0%nat) by (rewrite map_length, seq_length; auto).
  rewrite (map_nth f), seq_nth by auto. reflexivity.
Qed.

Lemma find_used_inj k k' u i : find_used k u = Some i -> find_used k' u = Some i -> k = k'.
Proof. intros A B. apply find_used_nth in A, B. congruence. Qed.

Lemma parse_deriv (t : ptab R) line e v :
  wf t -> gexp line e -> (Z.of_nat (List.length line) <= 2147483647)%Z ->
  ev N builtins (env_of t) e = Some v -> regular (env_of t) e ->
  exists d used,
    parse N builtins t line = Ok (v, d, used) /\
    (forall n, In n (pars e) -> exists i k x0,
       parfind t n = Some k /\ nth_error used i = Some k /\ env_of t n = Some x0 /\
       (nth_error (pfree t) k = Some true ->
          derivable_pt_lim (as_fun (env_of t) e n) x0 (nth i d 0)) /\
       (nth_error (pfree t) k = Some false -> nth i d 0 = 0)).
Proof.
  intros W G LL EV RG. destruct gram_nohash as (_ & _ & NH).
  destruct (parse_gram N builtins t line e v W G (NH _ _ G) LL EV)
    as (d & used & flags & A1 & A2 & A3 & A4 & A5 & A6 & A7).
  exists d, used. split; auto. intros n In_n.
  pose proof (A4 n In_n) as SL. unfold slot in SL.
  destruct (parfind t n) as [k|] eqn:Ek; [|congruence].
  destruct (find_used k used) as [i|] eqn:Ei; [|congruence].
  assert (En : exists x0, env_of t n = Some x0).
  { pose proof (ev_pars N builtins _ _ _ EV n In_n). destruct (env_of t n); [eauto|congruence]. }
  destruct En as [x0 En].
  pose proof (find_used_nth _ _ _ Ei) as Ui.
  pose proof (used_flags_nth t used flags A2 i k Ui) as FL.
  assert (Li : (i < List.length used)%nat) by (apply nth_error_Some; congruence).
  assert (PE : forall m, In m (pars e) -> option_map fst (pdual N t used flags m) = env_of t m).
  { intros m Im. apply pdual_env. auto. }
  destruct gram_range as (_ & _ & GR).
  exists i, k, x0. split; auto. split; auto. split; auto. split.
  - intros FT. rewrite FT in FL. symmetry in FL.
    assert (DV : deriv (init_st N used [] flags) = true).
    { unfold init_st; cbn [deriv]. apply existsb_exists. exists true. split; auto. eapply nth_error_In; eauto. }
    eapply (ad_deriv (pdual N t used flags) (init_st N used [] flags) (env_of t) n x0 i e v d); eauto.
    intros m y Im Py. unfold pdual in Py.
    destruct (parfind t m) as [km|] eqn:Ekm; [|discriminate].
    destruct (nth_error (pval t) km) as [vm|]; [|discriminate].
    destruct (find_used km used) as [im|] eqn:Eim; inversion Py; subst. simpl.
    destruct (Z.eqb_spec m n).
    + subst m. assert (km = k) by congruence. subst km. assert (im = i) by congruence. subst im.
      rewrite (nth_error_nth _ _ _ FL). rewrite look_unit by auto. rewrite Nat.eqb_refl. auto.
    + destruct (nth im flags false); [|apply look_nil]. rewrite look_unit by auto.
      destruct (Nat.eqb_spec i im); auto. subst im.
      exfalso. apply n0. assert (km = k) by (eapply find_used_inj; eauto). subst.
      eapply (parfind_inj t); eauto.
  - intros FT. rewrite FT in FL. symmetry in FL.
    destruct (deriv (init_st N used [] flags)) eqn:DV.
    + eapply (ad_zero (pdual N t used flags) (init_st N used [] flags) i e v d); eauto.
      intros m y Im Py. unfold pdual in Py.
      destruct (parfind t m) as [km|] eqn:Ekm; [|discriminate].
      destruct (nth_error (pval t) km) as [vm|]; [|discriminate].
      destruct (find_used km used) as [im|] eqn:Eim; inversion Py; subst. simpl.
      destruct (nth im flags false) eqn:Fi; [|apply look_nil]. rewrite look_unit by auto.
      destruct (Nat.eqb_spec i im); auto. subst im. rewrite (nth_error_nth _ _ _ FL) in Fi. discriminate.
    + assert (d = []) as ->.
      { assert (PN : forall m y, pdual N t used flags m = Some y -> snd y = []).
        { intros m y Hy. unfold pdual in Hy. destruct (parfind t m); [|discriminate].
          destruct (nth_error (pval t) n0); [|discriminate]. destruct (find_used n0 used); [|discriminate].
          rewrite (existsb_false_nth flags) in Hy by auto. inversion Hy; auto. }
        clear - A5 DV PN. revert v d A5. induction e; intros v d A5; simpl in A5.
        - destruct (lit m e); inversion A5; auto.
        - destruct (pdual N t used flags n) as [[a b]|] eqn:E; inversion A5; subst. apply PN in E. auto.
        - apply obind_ok in A5 as ([v0 d0] & A1 & A2). apply omap_ok in A2 as (d' & A2 & A3).
          rewrite (IHe _ _ A1) in A2. simpl in A2. inversion A2; subst. inversion A3; auto.
        - apply obind_ok in A5 as ([v1 d1] & A1 & A2). apply obind_ok in A2 as ([v2 d2] & A2 & A3).
          rewrite (IHe1 _ _ A1), (IHe2 _ _ A2) in A3. eapply binop_nil; eauto.
        - destruct (find_builtin builtins f) as [b|]; [|discriminate].
          apply obind_ok in A5 as ([v0 d0] & A1 & A2). apply omap_ok in A2 as (d' & A2 & A3).
          rewrite (IHe _ _ A1) in A2. simpl in A2. inversion A2; subst. inversion A3; auto. }
      destruct i; auto.
Qed.
End Deriv.
