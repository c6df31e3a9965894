(** Statements about the parameter part of the results text. *)
From Coq Require Import Ascii String List Arith ZArith Reals Bool Lia Lra Permutation Sorted.
From Verif Require Import Base ParamModel ParamSpec ParamProof OrderModel OrderProof MatrixModel ParserModel DataModel FmtModel ScatModel SaveModel ReportModel ReportSpec ReportProof.
Import ListNotations.

(** * counts *)
Definition with_flag (b : bool) (ids : list Z) (fl : list bool) : list Z := map fst (filter (fun x => Bool.eqb (snd x) b) (combine ids fl)).
Lemma with_flag_in b ids fl a : length fl = length ids -> (In a (with_flag b ids fl) <-> exists i, nth_error ids i = Some a /\ nth_error fl i = Some b).
Proof.
  revert fl. induction ids as [|x ids IH]; intros [|y fl] L; try discriminate L.
  - split; [intros []|intros ([|i] & H & _); discriminate].
  - unfold with_flag. cbn [combine filter snd]. assert (E : In a (with_flag b (x :: ids) (y :: fl)) <-> (x = a /\ y = b) \/ In a (with_flag b ids fl)).
    { unfold with_flag. cbn [combine filter snd]. destruct (Bool.eqb y b) eqn:E; cbn [map fst In].
      apply eqb_prop in E. tauto. apply eqb_false_iff in E. tauto. }
    unfold with_flag in E. cbn [combine filter snd] in E. rewrite E. fold (with_flag b ids fl). rewrite IH by (cbn in L; lia). split.
    + intros [[-> ->]|(i & A & B)]. exists 0%nat; auto. exists (S i); auto.
    + intros ([|i] & A & B); cbn in A, B. left; split; congruence. right; eauto.
Qed.
Lemma with_flag_nodup b ids fl : length fl = length ids -> NoDup ids -> NoDup (with_flag b ids fl).
Proof.
  revert fl. induction ids as [|x ids IH]; intros [|y fl] L N; try discriminate L. constructor.
  inversion N as [|? ? NI N']; subst. cbn in L. specialize (IH fl ltac:(lia) N'). unfold with_flag. cbn [combine filter snd]. fold (with_flag b ids fl).
  destruct (Bool.eqb y b); auto. cbn [map fst]. fold (with_flag b ids fl). constructor; auto. rewrite with_flag_in by lia. intros (i & A & _). apply nth_error_In in A. auto.
Qed.
Lemma with_flag_len ids fl : length fl = length ids -> length (with_flag true ids fl) = length (filter (fun b => b) fl) /\
  (length (with_flag true ids fl) + length (with_flag false ids fl) = length ids)%nat.
Proof.
  revert fl. induction ids as [|x ids IH]; intros [|y fl] L; try discriminate L. auto. cbn in L. destruct (IH fl ltac:(lia)) as [A B].
  unfold with_flag in *. destruct y; cbn; lia.
Qed.
Lemma same_len (l m : list Z) : NoDup l -> NoDup m -> (forall a, In a l <-> In a m) -> length l = length m.
Proof. intros A B E. apply Permutation_length. apply NoDup_Permutation; auto. Qed.

Section S.
Context {T : Type}.
Variable h : list (pop T).
Variable f : fitdata T.
Hypothesis HT : fd_tab f = prun ptab_init h.
Let t := fd_tab f.
Lemma flags_in b a : In a (with_flag b (pid t) (pfree t)) <-> flag_of a (rev h) = Some b.
Proof.
  destruct (wf_t h f HT) as (LV & LF & ND). fold t in LF, ND. rewrite with_flag_in by auto. split.
  - intros (i & A & B). apply (pos_flag h f HT i a b A); auto.
  - intros F. destruct (known_pos h f HT a) as [i A]. congruence. exists i. split; auto. apply (pos_flag h f HT i a b A); auto.
Qed.
Lemma count_free l : NoDup l -> (forall a, In a l <-> flag_of a (rev h) = Some true) -> npar f = length l.
Proof.
  intros N E. destruct (wf_t h f HT) as (LV & LF & ND). fold t in LF, ND. unfold npar. fold t. rewrite <- (proj1 (with_flag_len _ _ LF)).
  apply same_len; auto. apply with_flag_nodup; auto. intros a. rewrite flags_in, E. tauto.
Qed.
Lemma count_fixed l : NoDup l -> (forall a, In a l <-> flag_of a (rev h) = Some false) -> (length (pval t) - npar f = length l)%nat.
Proof.
  intros N E. destruct (wf_t h f HT) as (LV & LF & ND). fold t in LV, LF, ND. unfold npar. fold t.
  destruct (with_flag_len _ _ LF) as [A B]. rewrite <- A, LV, <- B.
  rewrite (same_len l (with_flag false (pid t) (pfree t))); auto. lia. apply with_flag_nodup; auto. intros a. rewrite flags_in, E. tauto.
Qed.
Lemma none_free : npar f = 0%nat <-> forall a, flag_of a (rev h) <> Some true.
Proof.
  destruct (wf_t h f HT) as (LV & LF & ND). fold t in LV, LF, ND.
  assert (E := proj1 (with_flag_len _ _ LF)). unfold npar. fold t. rewrite <- E. split.
  - intros L a F. apply flags_in in F. destruct (with_flag true (pid t) (pfree t)); [exact F|discriminate].
  - intros NO. destruct (with_flag true (pid t) (pfree t)) as [|a l] eqn:W; auto. destruct (NO a). apply flags_in. rewrite W. left; auto.
Qed.
End S.

(** * the parameters *)
Lemma report_counts {T} (h : list (pop T)) f l m : fd_tab f = prun ptab_init h -> sized f -> fd_iter f <> 0%Z ->
  NoDup l -> NoDup m -> (forall a, In a l <-> flag_of a (rev h) = Some true) -> (forall a, In a m <-> flag_of a (rev h) = Some false) ->
  exists r, save_res f = Ok r /\ rp_constraints r = fd_nvar f /\ rp_refined r = length l /\ rp_fixed r = length m /\
    (rp_body r = None <-> l = []).
Proof.
  intros HT HS IT N M L M'. unfold save_res. apply Z.eqb_neq in IT. rewrite IT. unfold fit_output.
  rewrite (count_free h f HT l N L). pose proof (count_fixed h f HT m M M') as CF. rewrite (count_free h f HT l N L) in CF.
  destruct (length l =? 0)%nat eqn:E.
  - eexists. split; [reflexivity|]. cbn. repeat split; auto. intros _. apply Nat.eqb_eq in E. destruct l; auto. discriminate.
  - destruct (body_ok h f HT HS) as (ps & cs & P & C & _). rewrite P, C. cbn [obind]. eexists. split; [reflexivity|]. cbn.
    repeat split; auto. discriminate. intros ->. discriminate.
Qed.

Lemma body_of {T} (h : list (pop T)) f a0 : fd_tab f = prun ptab_init h -> sized f -> fd_iter f <> 0%Z -> flag_of a0 (rev h) = Some true ->
  exists r ps cs, save_res f = Ok r /\ rp_body r = Some (ps, fd_iter f, cs) /\ par_items f (order_by_id (fd_tab f)) = Ok ps /\
    corr_rows f (order_by_id (fd_tab f)) = Ok cs.
Proof.
  intros HT HS IT F0. unfold save_res. apply Z.eqb_neq in IT. rewrite IT. unfold fit_output.
  destruct (npar f =? 0)%nat eqn:E. apply Nat.eqb_eq in E. destruct (proj1 (none_free h f HT) E _ F0).
  destruct (body_ok h f HT HS) as (ps & cs & P & C & _). rewrite P, C. cbn [obind]. eexists _, ps, cs. split; [reflexivity|]. auto.
Qed.

Lemma report_pars {T} (h : list (pop T)) f a0 : fd_tab f = prun ptab_init h -> sized f -> fd_iter f <> 0%Z -> flag_of a0 (rev h) = Some true ->
  exists r ps it cs, save_res f = Ok r /\ rp_body r = Some (ps, it, cs) /\ it = fd_iter f /\
    StronglySorted Z.lt (map (fun x => fst (fst x)) ps) /\
    forall a v d, In (a, v, d) ps <->
      last_set a (rev h) = Some v /\
      exists i, nth_error (pid (fd_tab f)) i = Some a /\
        (flag_of a (rev h) = Some true /\ nth_error (fd_dp f) i = Some d \/ flag_of a (rev h) = Some false /\ d = Fin d_zero).
Proof.
  intros HT HS IT F0. destruct (body_of h f a0 HT HS IT F0) as (r & ps & cs & E & B & P & C).
  exists r, ps, (fd_iter f), cs. split; auto. split; auto. split; auto.
  destruct (body_ok h f HT HS) as (ps' & cs' & P' & C' & F2 & _). assert (ps' = ps) by congruence. subst ps'.
  assert (NX : forall k x, nth_error ps k = Some x -> exists i, nth_error (order_by_id (fd_tab f)) k = Some i /\ par_at f i x).
  { clear -F2. induction F2 as [|i x o xs P F IH]; intros k y K. destruct k; discriminate. destruct k as [|k]; cbn in *. exists i. split; congruence. eauto. }
  assert (NY : forall k i, nth_error (order_by_id (fd_tab f)) k = Some i -> exists x, nth_error ps k = Some x /\ par_at f i x).
  { clear -F2. induction F2 as [|i x o xs P F IH]; intros k y K. destruct k; discriminate. destruct k as [|k]; cbn in *. exists x. split; congruence. eauto. }
  split.
  - pose proof (order_spec h) as (_ & SP). rewrite <- HT in SP.
    assert (LT : forall j k x y, (j < k)%nat -> nth_error ps j = Some x -> nth_error ps k = Some y -> (fst (fst x) < fst (fst y))%Z).
    { intros j k [[a v] d] [[b w] e] JK X Y. destruct (NX _ _ X) as (i1 & O1 & A1 & _). destruct (NX _ _ Y) as (i2 & O2 & A2 & _). cbn. eapply SP; eauto. }
    clear -LT. induction ps as [|x ps IH]; cbn; constructor.
    + apply IH. intros j k y z JK. apply (LT (S j) (S k)). lia.
    + apply Forall_forall. intros b B. apply in_map_iff in B as (y & <- & Y). apply In_nth_error in Y as [k K]. apply (LT 0%nat (S k)); auto. lia.
  - intros a v d. split.
    + intros I. apply In_nth_error in I as [k K]. destruct (NX _ _ K) as (i & O & A & V & D). split. apply (pos_val h f HT i a v A); auto.
      exists i. split; auto. destruct D as [[Fl D]|[Fl D]]; [left|right]; split; auto; apply (pos_flag h f HT i a _ A); auto.
    + intros (V & i & A & D). assert (I : In i (order_by_id (fd_tab f))). { apply (order_in f). eapply nth_lt; eauto. }
      apply In_nth_error in I as [k K]. destruct (NY _ _ K) as ([[a' v'] d'] & X & A' & V' & D'). apply nth_error_In in X.
      assert (a' = a) by congruence. subst a'. apply (pos_val h f HT i a v' A') in V'. assert (v' = v) by congruence. subst v'.
      replace d with d'; auto.
      destruct D as [[Fl D]|[Fl D]], D' as [[Fl' D']|[Fl' D']]; apply (pos_flag h f HT i a _ A) in Fl'; congruence.
Qed.

(** * correlations *)
Local Open Scope R_scope.
Lemma x_div_real m s : 0 < s -> x_div (real m) (real s) = real (m / s).
Proof.
  intros S0. unfold real, x_div, dbl_of. cbn [d_mag d_neg]. destruct (Rlt_dec s 0); [lra|].
  rewrite (Rabs_pos_eq s) by lra. destruct (Req_EM_T s 0); [lra|]. f_equal. f_equal.
  - assert (0 < / s) by (apply Rinv_0_lt_compat; auto). destruct (Rlt_dec m 0), (Rlt_dec (m / s) 0); auto; exfalso; unfold Rdiv in *; nra.
  - unfold Rdiv. rewrite Rabs_mult, (Rabs_pos_eq (/ s)). auto. left. apply Rinv_0_lt_compat; auto.
Qed.
Lemma x_big_real x : x_big (real x) = true <-> 8 / 10 < Rabs x.
Proof. unfold x_big, real, dbl_of. cbn [d_mag]. destruct (Rlt_dec (8 / 10) (Rabs x)); split; auto; try discriminate; tauto. Qed.

Lemma report_corr {T} (h : list (pop T)) f a0 (cov : nat -> nat -> R) (sd : nat -> R) :
  fd_tab f = prun ptab_init h -> sized f -> fd_iter f <> 0%Z -> flag_of a0 (rev h) = Some true ->
  let n := length (pid (fd_tab f)) in
  (forall i j, (i < n)%nat -> (j < n)%nat -> entry (fd_cov f) i j = Some (real (cov i j))) ->
  (forall i, (i < n)%nat -> nth_error (fd_dp f) i = Some (real (sd i))) ->
  (forall i, nth_error (pfree (fd_tab f)) i = Some true -> 0 < sd i) ->
  exists r ps it cs, save_res f = Ok r /\ rp_body r = Some (ps, it, cs) /\ NoDup (map fst cs) /\
    forall a b c, In (a, b, c) cs <->
      (a < b)%Z /\ flag_of a (rev h) = Some true /\ flag_of b (rev h) = Some true /\
      exists i j, nth_error (pid (fd_tab f)) i = Some a /\ nth_error (pid (fd_tab f)) j = Some b /\
        Rabs (cov i j) > 8 / 10 * (sd i * sd j) /\ c = real (cov i j / (sd i * sd j)).
Proof.
  intros HT HS IT F0 n CV SD POS. destruct (body_of h f a0 HT HS IT F0) as (r & ps & cs & E & B & P & C).
  exists r, ps, (fd_iter f), cs. split; auto. split; auto.
  destruct (body_ok h f HT HS) as (ps' & cs' & P' & C' & _ & IN & ND). assert (cs' = cs) by congruence. subst cs'.
  assert (DIV : forall i j, (i < n)%nat -> (j < n)%nat -> nth_error (pfree (fd_tab f)) i = Some true -> nth_error (pfree (fd_tab f)) j = Some true ->
    0 < sd i * sd j /\ x_div (x_div (real (cov i j)) (real (sd i))) (real (sd j)) = real (cov i j / (sd i * sd j)) /\
    (x_big (real (cov i j / (sd i * sd j))) = true <-> Rabs (cov i j) > 8 / 10 * (sd i * sd j))).
  { intros i j I J FI FJ. assert (P1 := POS i FI). assert (P2 := POS j FJ). assert (P3 : 0 < sd i * sd j) by (apply Rmult_lt_0_compat; auto). split; auto. split.
    - rewrite x_div_real, x_div_real by auto. f_equal. field. lra.
    - rewrite x_big_real. unfold Rdiv at 2. rewrite Rabs_mult, (Rabs_pos_eq (/ (sd i * sd j))) by (left; apply Rinv_0_lt_compat; auto).
      assert (K : Rabs (cov i j) = Rabs (cov i j) * / (sd i * sd j) * (sd i * sd j)) by (field; lra).
      split; intros H.
      + apply Rlt_gt. rewrite K. apply Rmult_lt_compat_r; auto.
      + apply Rmult_lt_reg_r with (sd i * sd j); auto. rewrite <- K. exact H. }
  assert (SP : forall a b c, In (a, b, c) cs <->
      (a < b)%Z /\ flag_of a (rev h) = Some true /\ flag_of b (rev h) = Some true /\
      exists i j, nth_error (pid (fd_tab f)) i = Some a /\ nth_error (pid (fd_tab f)) j = Some b /\
        Rabs (cov i j) > 8 / 10 * (sd i * sd j) /\ c = real (cov i j / (sd i * sd j))).
  { intros a b c. rewrite IN. split.
    - intros (AB & i & j & FI & FJ & A & B' & m & di & dj & M & DI & DJ & EC & BG). unfold free_at in FI, FJ.
      pose proof (nth_lt _ _ _ A) as IL. pose proof (nth_lt _ _ _ B') as JL. fold n in IL, JL.
      rewrite CV in M by auto. rewrite SD in DI, DJ by auto.
      destruct (DIV i j IL JL FI FJ) as (_ & D1 & D2).
      assert (EC' : c = real (cov i j / (sd i * sd j))). { rewrite EC, <- D1. congruence. }
      split; auto. split. apply (pos_flag h f HT i a _ A); auto. split. apply (pos_flag h f HT j b _ B'); auto.
      exists i, j. repeat split; auto. apply D2. rewrite <- EC'. auto.
    - intros (AB & FA & FB & i & j & A & B' & BG & EC). split; auto. exists i, j.
      apply (pos_flag h f HT i a _ A) in FA. apply (pos_flag h f HT j b _ B') in FB.
      pose proof (nth_lt _ _ _ A) as IL. pose proof (nth_lt _ _ _ B') as JL. fold n in IL, JL.
      destruct (DIV i j IL JL FA FB) as (_ & D1 & D2). repeat split; auto.
      exists (real (cov i j)), (real (sd i)), (real (sd j)). rewrite D1. repeat split; auto. rewrite EC. apply D2. auto. }
  split; auto.
  assert (U : forall a b c c', In (a, b, c) cs -> In (a, b, c') cs -> c = c').
  { intros a b c c' I1 I2. apply SP in I1 as (_ & _ & _ & i & j & A & B' & _ & ->). apply SP in I2 as (_ & _ & _ & i' & j' & A' & B2 & _ & ->).
    destruct (wf_t h f HT) as (_ & _ & NDI).
    assert (i = i'). { apply (proj1 (NoDup_nth_error _) NDI). eapply nth_lt; eauto. congruence. }
    assert (j = j'). { apply (proj1 (NoDup_nth_error _) NDI). eapply nth_lt; eauto. congruence. } subst; auto. }
  clear -ND U. induction ND as [|[[a b] c] cs NI ND IH]; cbn; constructor.
  - intros I. apply in_map_iff in I as ([[a' b'] c'] & Q & I). cbn in Q. injection Q as -> ->.
    rewrite (U a b c c') in NI; auto. left; auto. right; auto.
  - apply IH. intros x y z z' Z1 Z2. apply (U x y); right; auto.
Qed.

(** before the deviations are known *)
Lemma report_zero {T} (h : list (pop T)) f a0 (cov : nat -> nat -> R) :
  fd_tab f = prun ptab_init h -> sized f -> fd_iter f <> 0%Z -> flag_of a0 (rev h) = Some true ->
  let n := length (pid (fd_tab f)) in
  (forall i j, (i < n)%nat -> (j < n)%nat -> entry (fd_cov f) i j = Some (real (cov i j))) ->
  (forall i, (i < n)%nat -> nth_error (fd_dp f) i = Some (real 0)) ->
  exists r ps it cs, save_res f = Ok r /\ rp_body r = Some (ps, it, cs) /\
    forall a b c, In (a, b, c) cs <->
      (a < b)%Z /\ flag_of a (rev h) = Some true /\ flag_of b (rev h) = Some true /\
      exists i j, nth_error (pid (fd_tab f)) i = Some a /\ nth_error (pid (fd_tab f)) j = Some b /\
        (0 < cov i j /\ c = Inf false \/ cov i j < 0 /\ c = Inf true).
Proof.
  intros HT HS IT F0 n CV SD. destruct (body_of h f a0 HT HS IT F0) as (r & ps & cs & E & B & P & C).
  exists r, ps, (fd_iter f), cs. split; auto. split; auto.
  destruct (body_ok h f HT HS) as (ps' & cs' & P' & C' & _ & IN & ND). assert (cs' = cs) by congruence. subst cs'.
  assert (X : forall m, x_div (x_div (real m) (real 0)) (real 0) = if Req_EM_T m 0 then Nan else Inf (if Rlt_dec m 0 then true else false)).
  { intros m. unfold real, x_div, dbl_of. cbn [d_mag d_neg]. destruct (Rlt_dec 0 0); [lra|]. rewrite Rabs_R0. destruct (Req_EM_T 0 0); [|lra].
    destruct (Req_EM_T m 0) as [->|NZ]. rewrite Rabs_R0. destruct (Req_EM_T 0 0); [auto|lra].
    destruct (Req_EM_T (Rabs m) 0) as [Z0|]. destruct (Rabs_no_R0 m NZ Z0). destruct (Rlt_dec m 0); reflexivity. }
  intros a b c. rewrite IN. split.
  - intros (AB & i & j & FI & FJ & A & B' & m & di & dj & M & DI & DJ & EC & BG). unfold free_at in FI, FJ.
    pose proof (nth_lt _ _ _ A) as IL. pose proof (nth_lt _ _ _ B') as JL. fold n in IL, JL.
    rewrite CV in M by auto. rewrite SD in DI, DJ by auto.
    assert (EC' : c = x_div (x_div (real (cov i j)) (real 0)) (real 0)) by (rewrite EC; congruence). rewrite X in EC'.
    split; auto. split. apply (pos_flag h f HT i a _ A); auto. split. apply (pos_flag h f HT j b _ B'); auto.
    exists i, j. split; auto. split; auto. destruct (Req_EM_T (cov i j) 0). rewrite EC' in BG. discriminate.
    destruct (Rlt_dec (cov i j) 0). right; auto. left. split; auto. lra.
  - intros (AB & FA & FB & i & j & A & B' & CS). split; auto. exists i, j.
    apply (pos_flag h f HT i a _ A) in FA. apply (pos_flag h f HT j b _ B') in FB.
    pose proof (nth_lt _ _ _ A) as IL. pose proof (nth_lt _ _ _ B') as JL. fold n in IL, JL.
    repeat split; auto. exists (real (cov i j)), (real 0), (real 0). rewrite X. repeat split; auto.
    + destruct CS as [[G ->]|[G ->]]; destruct (Req_EM_T (cov i j) 0), (Rlt_dec (cov i j) 0); auto; lra.
    + destruct CS as [[G ->]|[G ->]]; auto.
Qed.

(** a correlation is at most 1 *)
Lemma corr_le_one x a b : 0 < a -> 0 < b -> x * x <= (a * a) * (b * b) -> Rabs (x / (a * b)) <= 1.
Proof.
  intros A B H. assert (AB : 0 < a * b) by (apply Rmult_lt_0_compat; auto).
  unfold Rdiv. rewrite Rabs_mult, (Rabs_pos_eq (/ (a * b))) by (left; apply Rinv_0_lt_compat; auto).
  apply Rmult_le_reg_r with (a * b); auto. rewrite Rmult_assoc, Rinv_l, Rmult_1_r, Rmult_1_l by lra.
  apply Rsqr_incr_0_var; [|lra]. rewrite <- Rsqr_abs. unfold Rsqr. nra.
Qed.
Lemma report_bound {T} (h : list (pop T)) f a0 (cov : nat -> nat -> R) (sd : nat -> R) :
  fd_tab f = prun ptab_init h -> sized f -> fd_iter f <> 0%Z -> flag_of a0 (rev h) = Some true ->
  let n := length (pid (fd_tab f)) in
  (forall i j, (i < n)%nat -> (j < n)%nat -> entry (fd_cov f) i j = Some (real (cov i j))) ->
  (forall i, (i < n)%nat -> nth_error (fd_dp f) i = Some (real (sd i)) /\ sd i = sqrt (cov i i)) ->
  (forall i, nth_error (pfree (fd_tab f)) i = Some true -> 0 < cov i i) ->
  (forall i j x y, 0 <= x * x * cov i i + x * y * (cov i j + cov j i) + y * y * cov j j) -> (forall i j, cov i j = cov j i) ->
  exists r ps it cs, save_res f = Ok r /\ rp_body r = Some (ps, it, cs) /\
    forall a b c, In (a, b, c) cs -> exists x, c = real x /\ 8 / 10 < Rabs x <= 1.
Proof.
  intros HT HS IT F0 n CV SD POS PSD SYM.
  destruct (report_corr h f a0 cov sd HT HS IT F0) as (r & ps & it & cs & E & B & _ & IN); auto.
  { intros i I. apply (SD i I). }
  { intros i FI. destruct (SD i) as [_ ->]. destruct (wf_t h f HT) as (_ & LF & _). unfold n. rewrite <- LF. eapply nth_lt; eauto. apply sqrt_lt_R0. auto. }
  exists r, ps, it, cs. split; auto. split; auto. intros a b c I. apply IN in I as (_ & FA & FB & i & j & A & B' & BG & ->).
  apply (pos_flag h f HT i a _ A) in FA. apply (pos_flag h f HT j b _ B') in FB. apply POS in FA. apply POS in FB.
  destruct (SD i (nth_lt _ _ _ A)) as [_ S1]. destruct (SD j (nth_lt _ _ _ B')) as [_ S2].
  assert (P1 : 0 < sd i) by (rewrite S1; apply sqrt_lt_R0; auto). assert (P2 : 0 < sd j) by (rewrite S2; apply sqrt_lt_R0; auto).
  eexists. split; [reflexivity|]. split.
  - assert (P3 : 0 < sd i * sd j) by (apply Rmult_lt_0_compat; auto). unfold Rdiv at 2. rewrite Rabs_mult, (Rabs_pos_eq (/ (sd i * sd j))) by (left; apply Rinv_0_lt_compat; auto).
    apply Rmult_lt_reg_r with (sd i * sd j); auto. rewrite (Rmult_assoc (Rabs _)), Rinv_l, Rmult_1_r by lra. exact BG.
  - apply corr_le_one; auto. assert (Q1 : sd i * sd i = cov i i). { rewrite S1. apply sqrt_sqrt. lra. }
    assert (Q2 : sd j * sd j = cov j j). { rewrite S2. apply sqrt_sqrt. lra. } rewrite Q1, Q2.
    pose proof (PSD i j (cov j j) (- cov i j)) as Q. rewrite (SYM j i) in Q. 
    assert (0 <= cov j j * (cov i i * cov j j - cov i j * cov i j)) by nra.
    destruct (Rle_dec (cov i j * cov i j) (cov i i * cov j j)); auto. exfalso. nra.
Qed.

(** * what save_res refuses and where it goes wrong *)
Lemma report_refused {T} (f : fitdata T) : save_res f = Err ErrUnassigned <-> fd_iter f = 0%Z.
Proof.
  unfold save_res. destruct (fd_iter f =? 0)%Z eqn:E. apply Z.eqb_eq in E. tauto. apply Z.eqb_neq in E. split; [|tauto]. intros H. exfalso. revert H.
  unfold fit_output. destruct (npar f =? 0)%nat. discriminate.
  assert (R1 : forall A (l : list A) i, rd l i <> Err ErrUnassigned). { intros A l i. unfold rd. destruct (nth_error l i); discriminate. }
  assert (OB : forall A B (x : outcome A) (k : A -> outcome B), x <> Err ErrUnassigned -> (forall a, k a <> Err ErrUnassigned) -> obind x k <> Err ErrUnassigned).
  { intros A B x k X K. destruct x; cbn; auto; try discriminate. intros Q. apply X. congruence. }
  assert (P : forall o, par_items f o <> Err ErrUnassigned).
  { induction o as [|i o IH]; cbn [par_items]; [discriminate|]. apply OB.
    - unfold par_item. apply OB; auto. intros b. apply OB; auto. destruct b; auto; discriminate. intros d. apply OB; auto. intros a. apply OB; auto. discriminate.
    - intros a. unfold omap. apply OB; auto. discriminate. }
  assert (CR : forall i o, corr_row f i o <> Err ErrUnassigned).
  { intros i. induction o as [|j o IH]; cbn [corr_row]; [discriminate|]. apply OB; auto. intros [|]; auto. apply OB.
    - unfold mx_get. destruct (_ && _)%bool; auto. discriminate.
    - intros c. apply OB; auto. intros di. apply OB; auto. intros dj. destruct (x_big _); auto. apply OB; auto. intros a. apply OB; auto. intros b. unfold omap. apply OB; auto. discriminate. }
  assert (C : forall o, corr_rows f o <> Err ErrUnassigned).
  { induction o as [|i o IH]; cbn [corr_rows]; [discriminate|]. apply OB; auto. intros [|]; auto. apply OB; auto. intros x. unfold omap. apply OB; auto. discriminate. }
  apply OB; auto. intros ps. apply OB; auto. discriminate.
Qed.

Lemma par_items_ub {T} (f : fitdata T) o i : In i o -> par_item f i = UB -> (forall j, exists x, par_item f j = x /\ (x = UB \/ exists y, x = Ok y)) -> par_items f o = UB.
Proof.
  intros I U A. induction o as [|j o IH]. destruct I. cbn [par_items]. destruct (A j) as (x & E & [->|[y ->]]); rewrite E; auto.
  cbn [obind]. destruct I as [-> |I]. congruence. rewrite (IH I). reflexivity.
Qed.
Lemma report_added {T} (h : list (pop T)) f k v : fd_tab f = prun ptab_init h -> sized f -> fd_iter f <> 0%Z -> last_set (u32 k) (rev h) = None ->
  save_res (mkFd (prun ptab_init (h ++ [PSet k v])) (fd_nvar f) (fd_dp f) (fd_cov f) (fd_iter f)) = UB.
Proof.
  intros HT HS IT NEW. apply Z.eqb_neq in IT. unfold save_res. cbn [fd_iter]. rewrite IT.
  set (g := mkFd (prun ptab_init (h ++ [PSet k v])) (fd_nvar f) (fd_dp f) (fd_cov f) (fd_iter f)).
  assert (TB : fd_tab g = mkPtab (pval (fd_tab f) ++ [v]) (pfree (fd_tab f) ++ [true]) (pid (fd_tab f) ++ [u32 k])).
  { unfold g. cbn [fd_tab]. rewrite prun_snoc. cbn [pstep fst]. rewrite <- HT. unfold setpar.
    rewrite <- (aval_run h) in NEW. unfold aval in NEW. rewrite <- HT in NEW. unfold parfind.
    destruct (find_pos (u32 k) (pid (fd_tab f))) as [i|] eqn:E; auto. destruct (wf_t h f HT) as (LV & _). apply find_pos_lt in E. rewrite <- LV in E. apply nth_error_Some in E. contradiction. }
  destruct (wf_t h f HT) as (LV & LF & ND). destruct HS as (LD & _).
  unfold fit_output. destruct (npar g =? 0)%nat eqn:E.
  { apply Nat.eqb_eq in E. unfold npar in E. rewrite TB in E. cbn [pfree] in E. rewrite filter_app, app_length in E. cbn in E. lia. }
  rewrite (par_items_ub g _ (length (pid (fd_tab f)))); auto.
  - apply (Permutation_in _ (order_permutation (fd_tab g))). apply in_seq. rewrite TB. cbn [pid]. rewrite app_length. cbn. lia.
  - unfold par_item. rewrite TB. cbn [pfree]. rewrite (rd_some _ _ true). 2:{ rewrite nth_error_app2 by lia. rewrite LF, Nat.sub_diag. auto. }
    cbn [obind]. unfold g. cbn [fd_dp]. unfold rd at 1. destruct (nth_error (fd_dp f) (length (pid (fd_tab f)))) eqn:Q; auto.
    apply nth_lt in Q. lia.
  - intros j. eexists. split; [reflexivity|]. unfold par_item, rd. destruct (nth_error (pfree (fd_tab g)) j) as [b|]; cbn [obind]; auto.
    destruct b; [destruct (nth_error (fd_dp g) j)|]; cbn [obind]; auto; destruct (nth_error (pid (fd_tab g)) j); cbn [obind]; auto; destruct (nth_error (pval (fd_tab g)) j); cbn [obind]; eauto.
Qed.
