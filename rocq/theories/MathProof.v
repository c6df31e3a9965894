From Coq Require Import List ZArith Ascii String Reals Lra Lia.
From Verif Require Import Base ParamModel ParamProof ParserModel ParserSpec ParserProof ParserDeriv MathModel MathSpec.
Import ListNotations.
Local Open Scope R_scope.

Lemma rad_pos : 0 < rad.
Proof. unfold rad. pose proof PI_RGT_0. lra. Qed.

Lemma dl_eq f x a b : derivable_pt_lim f x a -> a = b -> derivable_pt_lim f x b.
Proof. intros; subst; auto. Qed.

Lemma dl_asin x : -1 < x < 1 -> derivable_pt_lim asin x (1 / sqrt (1 - x * x)).
Proof.
  intros H. pose proof (derive_pt_asin x H) as E. unfold derive_pt, Rsqr in E.
  rewrite <- E. exact (proj2_sig (derivable_pt_asin x H)).
Qed.

Lemma dl_acos x : -1 < x < 1 -> derivable_pt_lim acos x (-1 / sqrt (1 - x * x)).
Proof.
  intros H. pose proof (derive_pt_acos x H) as E. unfold derive_pt, Rsqr in E.
  rewrite <- E. exact (proj2_sig (derivable_pt_acos x H)).
Qed.

Lemma dl_scale f k x l : derivable_pt_lim f (k * x) l -> derivable_pt_lim (fun y => f (k * y)) x (l * k).
Proof.
  intros H.
  assert (D : derivable_pt_lim (fun y => k * y) x k).
  { eapply dl_eq. apply (derivable_pt_lim_scal id k x 1). apply derivable_pt_lim_id. ring. }
  apply (derivable_pt_lim_comp (fun y => k * y) f x k l D H).
Qed.

Lemma dl_tan x : cos x <> 0 -> derivable_pt_lim tan x (1 / (cos x * cos x)).
Proof.
  intros C. eapply dl_eq.
  - apply (derivable_pt_lim_div sin cos x (cos x) (- sin x) (derivable_pt_lim_sin x) (derivable_pt_lim_cos x) C).
  - unfold Rsqr. pose proof (sin2_cos2 x) as S. unfold Rsqr in S.
    replace (cos x * cos x - - sin x * sin x) with 1 by lra. auto.
Qed.

Lemma dl_divr f k x l : derivable_pt_lim f x l -> derivable_pt_lim (fun y => f y / k) x (l / k).
Proof.
  intros H. eapply dl_eq.
  - apply dlim_ext with (f := mult_real_fct (/ k) f).
    intros y. unfold mult_real_fct, Rdiv. ring.
    apply derivable_pt_lim_scal. eauto.
  - unfold Rdiv. ring.
Qed.

Lemma dl_sqr x : derivable_pt_lim (fun y => y * y) x (2 * x).
Proof.
  eapply dl_eq. apply (derivable_pt_lim_mult id id x 1 1); apply derivable_pt_lim_id. unfold id. ring.
Qed.

Lemma builtin_spec : Forall2 (fun (s : string * ((R -> R) * (R -> Prop))) (b : builtin R) =>
    bname b = chars (fst s) /\ (forall x, bfun b x = fst (snd s) x) /\
    forall x, snd (snd s) x -> derivable_pt_lim (fst (snd s)) x (bder b x)) fun_spec Rbuiltins.
Proof.
  pose proof rad_pos as RP. pose proof PI_RGT_0 as PP.
  assert (DG : forall x, degrees x = rad * x). { intros. unfold degrees, rad. field. }
  assert (IR : forall y, y * 180 / PI = y / rad). { intros. unfold rad. field. lra. }
  unfold fun_spec, Rbuiltins.
  repeat constructor; cbn [fst snd bname bfun bder].
  - intros x _. apply (derivable_pt_lim_opp id x 1). apply derivable_pt_lim_id.
  - intros x _. apply derivable_pt_lim_sin.
  - intros x _. apply derivable_pt_lim_cos.
  - intros x C. apply (dl_tan x C).
  - intros x. unfold m_sind. rewrite DG. auto.
  - intros x _. apply dlim_ext with (f := fun y => sin (rad * y)). intros; rewrite DG; auto.
    eapply dl_eq. apply dl_scale. apply derivable_pt_lim_sin. unfold m_dsind. ring.
  - intros x. unfold m_cosd. rewrite DG. auto.
  - intros x _. apply dlim_ext with (f := fun y => cos (rad * y)). intros; rewrite DG; auto.
    eapply dl_eq. apply dl_scale. apply derivable_pt_lim_cos. unfold m_dcosd. ring.
  - intros x. unfold m_tand, tan. rewrite DG. auto.
  - intros x C. rewrite DG in C. apply dlim_ext with (f := fun y => tan (rad * y)). intros; rewrite DG; auto.
    eapply dl_eq. apply dl_scale. apply dl_tan; auto. unfold m_dtand, m_sqr, m_cosd. field. auto.
  - intros x C. eapply dl_eq. apply dl_asin; auto. unfold m_dasin. auto.
  - intros x C. eapply dl_eq. apply dl_acos; auto. unfold m_dacos. auto.
  - intros x C. eapply dl_eq. apply derivable_pt_lim_atan; auto. unfold m_datan, m_sqr, Rdiv. rewrite Rmult_1_l. f_equal; ring.
  - intros x. unfold m_asind. rewrite IR. auto.
  - intros x C. apply dlim_ext with (f := fun y => asin y / rad). intros; rewrite IR; auto.
    apply dl_divr. eapply dl_eq. apply dl_asin; auto. unfold m_dasin. auto.
  - intros x. unfold m_acosd. rewrite IR. auto.
  - intros x C. apply dlim_ext with (f := fun y => acos y / rad). intros; rewrite IR; auto.
    apply dl_divr. eapply dl_eq. apply dl_acos; auto. unfold m_dacos. auto.
  - intros x. unfold m_atand. rewrite IR. auto.
  - intros x C. apply dlim_ext with (f := fun y => atan y / rad). intros; rewrite IR; auto.
    apply dl_divr. eapply dl_eq. apply derivable_pt_lim_atan; auto. unfold m_datan, m_sqr, Rdiv. rewrite Rmult_1_l. f_equal; ring.
  - intros x _. apply derivable_pt_lim_exp.
  - intros x C. eapply dl_eq. apply derivable_pt_lim_ln; auto. unfold m_dlog. field. lra.
  - intros x. unfold m_sqr. ring.
  - intros x _. apply dlim_ext with (f := fun y => y * y). intros; ring. apply dl_sqr.
  - intros x. unfold m_cube. ring.
  - intros x _. apply dlim_ext with (f := fun y => y * y * y). intros; ring.
    eapply dl_eq. apply (derivable_pt_lim_mult (fun y => y * y) id x (2 * x) 1). apply dl_sqr. apply derivable_pt_lim_id.
    unfold m_dcube, m_sqr, id. ring.
  - intros x C. eapply dl_eq. apply derivable_pt_lim_sqrt; auto. unfold m_dsqrt. field.
    pose proof (sqrt_lt_R0 x C). lra.
Qed.

Lemma chars_inj a b : chars a = chars b -> a = b.
Proof.
  intros H. rewrite <- (string_of_list_ascii_of_string a), <- (string_of_list_ascii_of_string b).
  unfold chars in H. rewrite H. auto.
Qed.

(** lookup by name *)
Lemma builtin_lookup name f dom : In (name, (f, dom)) fun_spec ->
  exists b, find_builtin Rbuiltins (chars name) = Some b /\ (forall x, bfun b x = f x) /\
    forall x, dom x -> derivable_pt_lim f x (bder b x).
Proof.
  intros I.
  assert (ND : NoDup (map fst fun_spec)).
  { unfold fun_spec; cbn [map fst].
    repeat constructor; cbn [In]; intros H; repeat (destruct H as [H|H]; [discriminate|]); auto. }
  revert I ND. pose proof builtin_spec as F. revert F.
  generalize fun_spec as fs. generalize Rbuiltins as bs.
  intros bs fs F. induction F as [|s b fs bs (A & B & C) F IH]; cbn [In map]; intros I ND; [tauto|].
  inversion ND; subst. unfold find_builtin. cbn [find]. destruct I as [->|I].
  - cbn [fst snd] in *. rewrite A. unfold text_eqb. destruct (list_eq_dec _ _ _); [|congruence]. eauto.
  - unfold text_eqb. destruct (list_eq_dec ascii_dec (bname b) (chars name)) as [E|E].
    + exfalso. apply H1. rewrite A in E. apply chars_inj in E. rewrite E.
      apply in_map_iff. exists (name, (f, dom)). auto.
    + apply IH; auto.
Qed.

Lemma lookup_builtin n b : find_builtin Rbuiltins n = Some b ->
  exists name f dom, n = chars name /\ In (name, (f, dom)) fun_spec /\ (forall x, bfun b x = f x) /\
    forall x, dom x -> derivable_pt_lim f x (bder b x).
Proof.
  pose proof builtin_spec as F. revert F. unfold find_builtin.
  generalize fun_spec as fs. generalize Rbuiltins as bs.
  intros bs fs F. induction F as [|s b' fs bs (A & B & C) F IH]; cbn [find In]; [discriminate|].
  unfold text_eqb at 1. destruct (list_eq_dec ascii_dec (bname b') n) as [E|E].
  - inversion 1; subst b'. destruct s as [name [f dom]]. exists name, f, dom. cbn [fst snd] in *.
    repeat split; auto. congruence.
  - intros H. destruct (IH H) as (name & f & dom & P & Q & R'). exists name, f, dom. tauto.
Qed.

(** * envelope *)
Lemma env_poly q : 1 - (3/2) * q + (1/2) * q ^ 3 = (1 - q) ^ 2 * (2 + q) / 2.
Proof. field. Qed.

Lemma env_range r d : 0 < d -> 0 <= r -> 0 <= sphereEnvelope r d <= 1.
Proof.
  intros Hd Hr. unfold sphereEnvelope. assert (0 <= r / d). { apply Rmult_le_pos; auto. apply Rlt_le, Rinv_0_lt_compat; auto. }
  destruct (Rlt_dec (r / d) 1); [|lra]. set (q := r / d) in *. clearbody q.
  assert (0 <= (1 - q) ^ 2 * (2 + q)) by (apply Rmult_le_pos; [apply pow2_ge_0|lra]).
  assert (q * q <= 1) by nra. assert (q ^ 3 <= q) by (simpl; nra).
  pose proof (env_poly q). lra.
Qed.

Lemma env_mono r r' d : 0 < d -> 0 <= r -> r <= r' -> sphereEnvelope r' d <= sphereEnvelope r d.
Proof.
  intros Hd Hr H. pose proof (env_range r d Hd Hr).
  unfold sphereEnvelope in *.
  assert (A : 0 <= r / d). { apply Rmult_le_pos; auto. apply Rlt_le, Rinv_0_lt_compat; auto. }
  assert (B : r / d <= r' / d). { apply Rmult_le_compat_r; auto. apply Rlt_le, Rinv_0_lt_compat; auto. }
  destruct (Rlt_dec (r' / d) 1); destruct (Rlt_dec (r / d) 1); try lra.
  set (q := r / d) in *. set (q' := r' / d) in *. clearbody q q'.
  replace (1 - 3/2*q' + 1/2*q'^3) with (1 - 3/2*q + 1/2*q^3 - (q' - q) * (3 - (q*q + q*q' + q'*q')) / 2) by field.
  assert (0 <= (q' - q) * (3 - (q * q + q * q' + q' * q'))). { assert (q * q <= 1) by nra. assert (q * q' <= 1) by nra. assert (q' * q' <= 1) by nra. apply Rmult_le_pos; lra. }
  lra.
Qed.

Lemma env_zero r d : 0 < d -> d <= r -> sphereEnvelope r d = 0.
Proof.
  intros Hd H. unfold sphereEnvelope. destruct (Rlt_dec (r / d) 1); auto.
  exfalso. apply (Rmult_lt_compat_r d) in r0; auto. unfold Rdiv in r0. rewrite Rmult_assoc, Rinv_l in r0 by lra. lra.
Qed.

Lemma env_one d : 0 < d -> sphereEnvelope 0 d = 1.
Proof.
  intros. unfold sphereEnvelope. replace (0 / d) with 0 by (field; lra).
  destruct (Rlt_dec 0 1); lra.
Qed.

(** local agreement *)
Lemma dl_local f g x l eps0 : 0 < eps0 -> (forall y, Rabs (y - x) < eps0 -> f y = g y) ->
  derivable_pt_lim f x l -> derivable_pt_lim g x l.
Proof.
  intros He E H eps Hp. destruct (H eps Hp) as [dl K].
  assert (P : 0 < Rmin dl eps0) by (apply Rmin_glb_lt; auto; apply cond_pos).
  exists (mkposreal _ P). simpl. intros h Hh Hl.
  rewrite <- !E. apply K; auto. eapply Rlt_le_trans; [exact Hl|apply Rmin_l].
  replace (x - x) with 0 by ring. rewrite Rabs_R0; auto.
  replace (x + h - x) with h by ring. eapply Rlt_le_trans; [exact Hl|apply Rmin_r].
Qed.

Lemma env_deriv r d : 0 < d -> 0 <= r ->
  derivable_pt_lim (fun x => sphereEnvelope r x) d (dsphereEnvelope r d).
Proof.
  intros Hd Hr. 
  assert (POS : forall x, 0 < x -> (r / x < 1 <-> r < x)).
  { intros x Hx. split; intros H.
    - apply (Rmult_lt_compat_r x) in H; auto. unfold Rdiv in H. rewrite Rmult_assoc, Rinv_l in H by lra. lra.
    - apply (Rmult_lt_reg_r x); auto. unfold Rdiv. rewrite Rmult_assoc, Rinv_l by lra. lra. }
  destruct (Rtotal_order r d) as [H|[H|H]].
  - apply dl_local with (f := fun x => 1 - (3/2) * (r / x) + (1/2) * (r / x) ^ 3) (eps0 := d - r). lra.
    + intros y Hy. apply Rabs_def2 in Hy. unfold sphereEnvelope. destruct (Rlt_dec (r / y) 1); auto.
      exfalso. apply n. apply POS; lra.
    + assert (D : derivable_pt_lim (fun x => r / x) d (- r / (d * d))).
      { eapply dl_eq. apply (derivable_pt_lim_div (fun _ => r) id d 0 1).
        apply dlim_const. apply derivable_pt_lim_id. unfold id; lra. unfold id, Rsqr. field. lra. }
      assert (D3 : derivable_pt_lim (fun x => (r / x) ^ 3) d (3 * (r/d) ^ 2 * (- r / (d * d)))).
      { eapply dl_eq. apply (derivable_pt_lim_comp (fun x => r / x) (fun q => q ^ 3) d _ (INR 3 * (r / d) ^ 2) D).
        apply (derivable_pt_lim_pow (r / d) 3). replace (INR 3) with 3 by (simpl; ring). ring. }
      eapply dl_eq.
      * apply dlim_ext with (f := fun x => (1 - (3/2) * (r / x)) + (1/2) * (r / x) ^ 3). intros; ring.
        apply (derivable_pt_lim_plus (fun x => 1 - (3/2) * (r / x)) (fun x => (1/2) * (r/x)^3)).
        apply (derivable_pt_lim_minus (fun _ => 1) (fun x => (3/2) * (r / x))). apply dlim_const.
        apply (derivable_pt_lim_scal (fun x => r / x) (3/2)). exact D.
        apply (derivable_pt_lim_scal (fun x => (r / x)^3) (1/2)). exact D3.
      * unfold dsphereEnvelope. destruct (Rlt_dec (r / d) 1). field. lra. exfalso. apply n. apply POS; lra.
  - subst d.
    assert (V : dsphereEnvelope r r = 0).
    { unfold dsphereEnvelope. destruct (Rlt_dec (r / r) 1); auto. exfalso. apply POS in r0; lra. }
    rewrite V. intros eps He.
    assert (P : 0 < Rmin (r / 2) (eps * r * r / 8)) .
    { apply Rmin_glb_lt. lra. assert (0 < eps * r * r) by (apply Rmult_lt_0_compat; [apply Rmult_lt_0_compat|]; lra). lra. }
    exists (mkposreal _ P). simpl. intros h Hh Hl.
    assert (L1 : Rabs h < r / 2) by (eapply Rlt_le_trans; [exact Hl|apply Rmin_l]).
    assert (L2 : Rabs h < eps * r * r / 8) by (eapply Rlt_le_trans; [exact Hl|apply Rmin_r]).
    rewrite (env_zero r r) by lra. 
    replace ((sphereEnvelope r (r + h) - 0) / h - 0) with (sphereEnvelope r (r + h) / h) by (field; auto).
    apply Rabs_def2 in L1.
    destruct (Rle_dec h 0).
    + rewrite env_zero by lra. unfold Rdiv. rewrite Rmult_0_l, Rabs_R0. auto.
    + assert (Hp : 0 < h) by lra. rewrite Rabs_right in L2 by lra.
      unfold sphereEnvelope. destruct (Rlt_dec (r / (r + h)) 1) as [Q|Q].
      2:{ exfalso; apply Q; apply POS; lra. }
      rewrite env_poly.
      assert (E : (1 - r / (r + h)) ^ 2 * (2 + r / (r + h)) / 2 / h = h * (3 * r + 2 * h) / (2 * (r + h) ^ 3)).
      { field. split; lra. }
      rewrite E.
      assert (D0 : 0 < (r + h) ^ 3) by (apply pow_lt; lra).
      assert (B1 : r * r * r <= (r + h) ^ 3). { simpl. nra. }
      assert (Z0 : 0 < r * r * r) by (apply Rmult_lt_0_compat; [apply Rmult_lt_0_compat|]; lra).
      rewrite Rabs_right.
      2:{ apply Rle_ge. apply Rmult_le_pos. nra. apply Rlt_le, Rinv_0_lt_compat. lra. }
      apply (Rmult_lt_reg_r (2 * (r + h) ^ 3)); [lra|].
      unfold Rdiv. rewrite Rmult_assoc, Rinv_l by lra. rewrite Rmult_1_r.
      assert (h * (3 * r + 2 * h) <= h * (4 * r)) by nra.
      assert (h * (4 * r) < eps * r * r / 8 * (4 * r)) by (apply Rmult_lt_compat_r; lra).
      assert (eps * (2 * (r * r * r)) <= eps * (2 * (r + h) ^ 3)) by (apply Rmult_le_compat_l; lra).
      assert (eps * r * r / 8 * (4 * r) <= eps * (2 * (r * r * r))). { assert (0 < eps * (r * r * r)) by (apply Rmult_lt_0_compat; lra). lra. }
      lra.
  - apply dl_local with (f := fun _ => 0) (eps0 := Rmin d (r - d)).
    + apply Rmin_glb_lt; lra.
    + intros y Hy. assert (A : Rabs (y - d) < d) by (eapply Rlt_le_trans; [exact Hy|apply Rmin_l]).
      assert (B : Rabs (y - d) < r - d) by (eapply Rlt_le_trans; [exact Hy|apply Rmin_r]).
      apply Rabs_def2 in A. apply Rabs_def2 in B. rewrite env_zero; lra.
    + unfold dsphereEnvelope. destruct (Rlt_dec (r / d) 1). exfalso. apply POS in r0; lra. apply dlim_const.
Qed.

(** * formulas over the reals with the actual table *)
Lemma lookup_find f : match lookup f fun_spec, find_builtin Rbuiltins f with
  | Some (g, dom), Some b => (forall x, bfun b x = g x) /\ (forall x, dom x -> derivable_pt_lim g x (bder b x))
  | None, None => True
  | _, _ => False
  end.
Proof.
  pose proof builtin_spec as F. revert F. unfold find_builtin.
  generalize fun_spec as fs. generalize Rbuiltins as bs.
  intros bs fs F. induction F as [|[s [g dom]] b fs bs (A & B & C) F IH]; cbn [find lookup fst snd] in *; auto.
  rewrite A. unfold text_eqb, chars in *. destruct (list_eq_dec ascii_dec (list_ascii_of_string s) f); [split; auto|exact IH].
Qed.

Definition Rlit (m e : Z) : option R := Some (decimal m e).

Lemma meaning_ev env e : meaning env e = ev (Rnum Rlit) Rbuiltins env e.
Proof.
  induction e; cbn [meaning ev]; auto.
  - rewrite IHe. destruct (ev _ _ env e); auto.
  - rewrite IHe1, IHe2. auto.
  - rewrite IHe. pose proof (lookup_find f) as L.
    destruct (lookup f fun_spec) as [[g dom]|], (find_builtin Rbuiltins f); try tauto.
    destruct L as [L _]. destruct (ev _ _ env e); auto. rewrite L; auto.
Qed.

Lemma smooth_regular env e v : meaning env e = Some v -> smooth env e -> regular Rlit Rbuiltins env e.
Proof.
  revert v; induction e; cbn [meaning regular smooth]; intros v M S; auto.
  - destruct (meaning env e); [eauto|discriminate].
  - destruct (meaning env e1) eqn:E1; [|discriminate]. destruct (meaning env e2) eqn:E2; [|discriminate].
    destruct S as (S1 & S2 & S3). repeat split; eauto.
    intros C. rewrite <- meaning_ev, E2. simpl. auto.
  - pose proof (lookup_find f) as L. destruct (lookup f fun_spec) as [[g dom]|]; [|discriminate].
    destruct (meaning env e) as [x|] eqn:E; [|discriminate]. destruct S as [S1 S2]. split; eauto.
    intros b Hb. rewrite Hb in L. destruct L as [L1 L2]. rewrite <- meaning_ev, E. simpl.
    apply dlim_ext with (f := g). intros; symmetry; auto. apply L2. eapply S2; eauto.
Qed.

Lemma partial_as_fun env e n x : partial_fun env e n x = as_fun Rlit Rbuiltins env e n x.
Proof. unfold partial_fun, as_fun. rewrite meaning_ev. reflexivity. Qed.

Lemma parse_meaning (t : ptab R) line e v : wf t -> gexp line e ->
  (Z.of_nat (List.length line) <= 2147483647)%Z -> meaning (env_of t) e = Some v ->
  exists d used, parse (Rnum Rlit) Rbuiltins t line = Ok (v, d, used).
Proof.
  intros W G L M. rewrite meaning_ev in M. destruct gram_nohash as (_ & _ & NH).
  destruct (parse_gram _ _ t line e v W G (NH _ _ G) L M) as (d & used & fl & A & _). eauto.
Qed.

Lemma parse_gradient (t : ptab R) line e v : wf t -> gexp line e ->
  (Z.of_nat (List.length line) <= 2147483647)%Z -> meaning (env_of t) e = Some v -> smooth (env_of t) e ->
  exists d used,
    parse (Rnum Rlit) Rbuiltins t line = Ok (v, d, used) /\
    (forall n, In n (pars e) -> exists i k x0,
       parfind t n = Some k /\ nth_error used i = Some k /\ getpar t n = Ok x0 /\
       (nth_error (pfree t) k = Some true ->
          derivable_pt_lim (partial_fun (env_of t) e n) x0 (nth i d 0)) /\
       (nth_error (pfree t) k = Some false -> nth i d 0 = 0)).
Proof.
  intros W G L M S. pose proof (smooth_regular _ _ _ M S) as Rg. rewrite meaning_ev in M.
  destruct (parse_deriv Rlit Rbuiltins t line e v W G L M Rg) as (d & used & A & B).
  exists d, used. split; auto. intros n I. destruct (B n I) as (i & k & x0 & B1 & B2 & B3 & B4 & B5).
  exists i, k, x0. repeat split; auto.
  - unfold env_of in B3. destruct (getpar t n); congruence.
  - intros F. apply dlim_ext with (f := as_fun Rlit Rbuiltins (env_of t) e n); auto.
    intros; symmetry; apply partial_as_fun.
Qed.

Lemma env_shape r d : 0 < d -> 0 <= r ->
    0 <= sphereEnvelope r d <= 1 /\ sphereEnvelope 0 d = 1 /\
    (d <= r -> sphereEnvelope r d = 0) /\
    (r < d -> sphereEnvelope r d = 1 - 3/2 * (r/d) + 1/2 * (r/d)^3 /\ 0 < sphereEnvelope r d) /\
    (forall r', r <= r' -> sphereEnvelope r' d <= sphereEnvelope r d).
Proof.
  intros Hd Hr. split; [apply env_range; auto|]. split; [apply env_one; auto|].
  split; [apply env_zero; auto|]. split; [|intros; apply env_mono; auto].
  intros H. assert (0 <= r / d). { apply Rmult_le_pos; auto. apply Rlt_le, Rinv_0_lt_compat; auto. }
  assert (r / d < 1).
  { apply (Rmult_lt_reg_r d); auto. unfold Rdiv. rewrite Rmult_assoc, Rinv_l by lra. lra. }
  unfold sphereEnvelope. destruct (Rlt_dec (r / d) 1); [|lra]. split; auto.
  rewrite env_poly. apply Rmult_lt_0_compat; [|lra]. apply Rmult_lt_0_compat; [|lra]. apply pow_lt. lra.
Qed.

Lemma env_case : sphereEnvelope 1 2 = 5/16 /\ dsphereEnvelope 1 2 = 9/32.
Proof. unfold sphereEnvelope, dsphereEnvelope. destruct (Rlt_dec (1 / 2) 1); [|lra]. split; field. Qed.

Lemma builtin_case : exists f dom, In ("tand"%string, (f, dom)) fun_spec /\ dom 60 /\
  f 0 = 0 /\ exists b, find_builtin Rbuiltins (chars "tand") = Some b.
Proof.
  exists (fun x => sin (degrees x) / cos (degrees x)), (fun x => cos (degrees x) <> 0).
  split. { unfold fun_spec. do 6 right. left. reflexivity. }
  split. { replace (degrees 60) with (PI / 3) by (unfold degrees; field). rewrite cos_PI3. lra. }
  split. { replace (degrees 0) with 0 by (unfold degrees; field). rewrite sin_0, cos_0. field. }
  eexists. reflexivity.
Qed.
