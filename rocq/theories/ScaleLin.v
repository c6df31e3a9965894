(** Refinement of phase scale factors. *)
From Coq Require Import List Arith ZArith Reals Bool Lia Lra.
From Verif Require Import Base RSum Util ParamModel ParamProof ParserModel ParserSpec ParserDeriv MathModel MathSpec MathProof MatrixModel MatrixProof ConModel ConSpec ConProof ConHist ParserProof ConReal GaussSpec MetricModel PdfModel PdfSpec LayoutModel LayoutSpec LayoutProof DerivModel DerivSpec LsModel LsSpec LinSpec LinFinal TheoryModel TheorySpec TheoryMem ScaleCols ScaleSpec ScaleMem ScaleLoad ScaleFinal.
Import ListNotations.
Local Open Scope R_scope.

Lemma own_pars (st : cstate R) : with_pars st (pars_of st) = st.
Proof.
  destruct st as [[v f i] c d m]. unfold with_pars, pars_of. cbn [ctab pval pfree pid cons_ cdvdp cmem]. do 2 f_equal.
  apply nth_ext with (d := 0) (d' := 0). rewrite map_length, seq_length. auto. intros k Hk. rewrite map_length, seq_length in Hk.
  rewrite (nth_indep _ 0 ((fun l => nth (l - 1) v 0) 0%nat)) by (rewrite map_length, seq_length; auto). rewrite (map_nth (fun l => nth (l - 1) v 0)), seq_nth by auto. f_equal. lia.
Qed.
Lemma see_all {K} (P : K -> Prop) (Q Q' : K -> tres -> Prop) (M : dsval -> dsval -> Prop) : (forall st k r r', P k -> Q k r -> Q' k r' -> M (see st r) (see st r')) ->
  forall sets ks rs rs', Forall P ks -> Forall2 Q ks rs -> Forall2 Q' ks rs' ->
  Forall2 M (map (fun x => see (fst x) (snd x)) (combine sets rs)) (map (fun x => see (fst x) (snd x)) (combine sets rs')).
Proof.
  intros H. induction sets as [|st sets IH]; intros ks rs rs' FP F F'. constructor. destruct F as [|k r ks rs A F]; inversion F'; subst. constructor.
  inversion FP; subst. cbn [combine map fst snd]. constructor; eauto.
Qed.
Lemma see_data sets : forall rs, length rs = length sets -> Forall2 (fun s d => d_obs d = ts_obs s /\ d_w d = ts_w s) sets (map (fun x => see (fst x) (snd x)) (combine sets rs)).
Proof. induction sets as [|s sets IH]; intros [|r rs] L; cbn in *; try lia; constructor; auto. Qed.

Lemma to_forall2 {A B} (P : A -> B -> Prop) : forall l l', length l' = length l -> (forall i a b, nth_error l i = Some a -> nth_error l' i = Some b -> P a b) -> Forall2 P l l'.
Proof. induction l as [|a l IH]; intros [|b l'] L H; cbn in L; try lia; constructor. apply (H 0%nat); auto. apply IH. lia. intros i. apply (H (S i)). Qed.
Lemma f2_nth {A B} (P : A -> B -> Prop) : forall l l' i a, Forall2 P l l' -> nth_error l i = Some a -> exists b, nth_error l' i = Some b /\ P a b.
Proof. induction l as [|a l IH]; intros l' [|i] x F E; inversion F; subst; try discriminate. inversion E; subst. eexists; split; [reflexivity|auto]. cbn in E. destruct (IH _ _ _ H3 E) as (b & B1 & B2). exists b. auto. Qed.
Lemma combine_at {A} (l : list A) i a : nth_error l i = Some a -> nth_error (combine (seq 0 (length l)) l) i = Some (i, a).
Proof.
  intros E. assert (L : (i < length l)%nat) by (apply nth_error_Some; congruence). rewrite (nth_error_nth' _ (0%nat, a)) by (rewrite combine_length, seq_length; lia). rewrite combine_nth by (rewrite seq_length; auto). rewrite seq_nth by auto. f_equal. f_equal. apply nth_error_nth. auto.
Qed.

Notation Nm := (Rnum Rlit).
Theorem scale_linear addr ph sets st cs npar o : apart addr (atoms_in ph) (length sets) -> blocks_ok ph -> ConReal.dinv Nm st cs -> scales_only addr (length ph) st cs ->
  ready addr ph sets (cmem st) -> npar = (phase_size (atoms_in ph) + 3 * length sets)%nat ->
  exists f0, forall fuel, (f0 <= fuel)%nat -> exists ds0, let O := theory_object addr Nm Rbuiltins fuel ph sets npar st o in
    f_setup O = Ok tt /\ linear O ds0 /\ Forall2 (fun s d => d_obs d = ts_obs s /\ d_w d = ts_w s) sets ds0 /\
    forall is s, nth_error sets is = Some s -> exists lo hi F, phase_parts addr ph (cmem st) fuel is s lo hi F /\
      forall p ds, f_theory O p = Ok ds -> exists d, nth_error ds is = Some d /\ d_lo d = lo /\ d_hi d = hi /\ forall i, (lo <= i <= hi)%nat -> d_pdf d i = lsum (fun ip => scale_of addr st cs p ip * F ip i) (seq 0 (length ph)).
Proof.
  intros AP BO D SO RD NP.
  assert (NK : forall a c, In (a, c) cs -> con_ok c /\ numbers_ok c /\ affine st c). { intros a c I. destruct SO as [_ H]. destruct (H a c I) as (_ & A & B & C). auto. }
  destruct (fill_at st cs D NK (pars_of st)) as (s & F & D1 & T & M & CV & CR & _). rewrite own_pars in F, T.
  set (find := fun v => vfind (cons_ s) (addr v)).
  destruct (proj1 (layout_ok find (atoms_in ph) (length sets) npar) NP) as (ly & LY & _).
  assert (WP : forall p, ctab (with_pars s p) = ctab (with_pars st p)) by (intros p; unfold with_pars; cbn; rewrite T; reflexivity).
  assert (SO1 : scales_only addr (length ph) s cs).
  { destruct SO as [ND H]. split; auto. intros a c I. destruct (H a c I) as (A & B & C & w0 & w & E). split; auto. split; auto. split; auto. exists w0, w. intros p. rewrite WP, T. apply E. }
  assert (M0 : forall a, ~ In a (map fst cs) -> cmem s a = cmem st a).
  { intros a NI. rewrite M. destruct (last_con a cs) eqn:L; auto. apply last_con_in in L. exfalso. apply NI. apply (in_map fst) in L. exact L. }
  assert (CR1 : map cref (cons_ s) = vrefs s cs) by (rewrite CR; unfold vrefs; rewrite T; reflexivity).
  destruct (phase_numbers addr ph cs s SO1) as (ipof & IP).
  destruct (lattices (phases_in addr ph (cmem st)) (proj1 RD)) as (des & LD & DE & LAT).
  destruct (theory_at addr ph sets cs AP BO s (cmem st) ly npar D1 SO1 M0 RD CV CR1 LY ipof IP des LD DE LAT) as (f0 & ks & K & X).
  assert (KL : length ks = length sets) by (rewrite <- (Forall2_length _ _ _ K), combine_length, seq_length; lia).
  assert (KP : Forall (fun k => (0 <= k_f1 k <= k_f2 k)%Z) ks) by (clear - K; induction K as [|[is t] k l ks [A _] _ IH]; constructor; auto).
  assert (XS : forall p ip, xs addr cs s (cmem st) p ip = scale_of addr st cs p ip) by (intros p ip; unfold xs, scale_of, val; destruct (last_con _ cs); auto; rewrite WP; reflexivity).
  exists f0. intros fuel Hf. destruct (X fuel (pars_of st) Hf) as (rq & EQ & SQ).
  exists (map (fun x => see (fst x) (snd x)) (combine sets rq)). intros O.
  assert (EO : O = mkF (length (pval (ctab st))) (pars_of st) (free_of st) (fun p => theory_values addr Nm Rbuiltins fuel ly ph sets s p) (Ok tt) (f_covar o) (f_alpha o) (f_dim o) (f_chisq o) (f_ochisq o) (f_alambda o) (f_cum o)).
  { unfold O, theory_object, theory_setup. rewrite F. cbn [obind]. fold find. change (map (fun p => length (cp_atoms p)) ph) with (atoms_in ph). rewrite LY. reflexivity. }
  rewrite EO. split; auto. split; [split|split].
  - cbn [f_theory f_p]. unfold theory_values. rewrite EQ. reflexivity.
  - intros p AL. destruct (X fuel p Hf) as (rp & EP & SP). exists (map (fun x => see (fst x) (snd x)) (combine sets rp)). split. { cbn [f_theory]. unfold theory_values. rewrite EP. reflexivity. }
    apply (see_all (fun k => (0 <= k_f1 k <= k_f2 k)%Z) (seen ph cs s ipof (xs addr cs s (cmem st) (pars_of st))) (seen ph cs s ipof (xs addr cs s (cmem st) p)) _) with (ks := ks); auto.
    intros t k r r' Kk Sr Sr'. unfold moved, free. cbn [f_ma f_ia f_p].
    pose proof (see_moved addr ph sets cs AP s (cmem st) D1 SO1 ipof IP des LD t k p (pars_of st) r' r (free_of st)) as Q. cbv zeta in Q. rewrite T in Q. apply Q; auto.
    + intros l. unfold free_of. rewrite T. reflexivity.
    + intros l Hl Fl. apply AL. unfold free. cbn [f_ma f_ia]. unfold free_of in Fl. rewrite T in Fl. intros [_ Y]. unfold free_of in Y. congruence.
  - apply see_data. rewrite <- KL. symmetry. apply (Forall2_length _ _ _ SQ).
  - intros is t E. destruct (f2_nth _ _ _ _ _ K (combine_at _ _ _ E)) as (k & Ek & [K1 K2]). exists (Z.to_nat (k_f1 k)), (Z.to_nat (k_f2 k)), (fun ip i => k_F k ip (Z.of_nat i)). split.
    + intros ip Hip. destruct (K2 (unit_at ip) fuel Hf) as (tt & ET & HT). exists des, tt. split. apply to_forall2; auto. split. rewrite entries_scaled, !Z2Nat.id by lia. exact ET.
      intros i Hi. specialize (HT (Z.of_nat i) ltac:(lia)). unfold el in HT. rewrite Nat2Z.id in HT. rewrite HT. f_equal.
      transitivity (lsum (fun j => if (j =? ip)%nat then k_F k j (Z.of_nat i) else 0) (seq 0 (length ph))). apply lsum_ext. intros j _. unfold unit_at. destruct (j =? ip)%nat; ring.
      rewrite (pick_one (fun j => k_F k j (Z.of_nat i))). destruct (Nat.ltb_spec ip (length ph)); [auto|lia].
    + intros p ds E1. cbn [f_theory] in E1. unfold theory_values in E1. destruct (X fuel p Hf) as (rp & EP & SP). rewrite EP in E1. cbn [omap] in E1. inversion E1; subst ds.
      destruct (Forall2_nth_l _ _ _ _ _ SP Ek) as (r & Er & Sr). exists (see t r). split.
      { rewrite nth_error_map. assert (Q : nth_error (combine sets rp) is = Some (t, r)); [|rewrite Q; reflexivity]. 
        assert (L1 : (is < length sets)%nat) by (apply nth_error_Some; congruence). pose proof (Forall2_length _ _ _ SP) as L2.
        rewrite (nth_error_nth' _ (t, r)) by (rewrite combine_length; lia). rewrite combine_nth by lia. rewrite (nth_error_nth _ _ _ E), (nth_error_nth _ _ _ Er). reflexivity. }
      destruct Sr as (R1 & R2 & Sr). split. cbn [see d_lo]. rewrite R1. reflexivity. split. cbn [see d_hi]. rewrite R2. reflexivity.
      intros i I. assert (G : (k_f1 k <= Z.of_nat i <= k_f2 k)%Z) by lia. destruct (Sr _ G) as [Q _]. unfold el in Q. rewrite Nat2Z.id in Q. cbn [see d_pdf]. rewrite Q. cbn [number]. apply lsum_ext. intros ip _. rewrite XS. reflexivity.
Qed.

(** sessions *)
Theorem scale_session addr ph sets mem (h : list (uop R)) npar o : let st := crun Nm Rbuiltins (cinit mem) (map to_cop h) in
  apart addr (atoms_in ph) (length sets) -> blocks_ok ph -> scales_only addr (length ph) st (ucons h) ->
  ready addr ph sets (cmem st) -> npar = (phase_size (atoms_in ph) + 3 * length sets)%nat ->
  exists f0, forall fuel, (f0 <= fuel)%nat -> exists ds0, let O := theory_object addr Nm Rbuiltins fuel ph sets npar st o in
    f_setup O = Ok tt /\ linear O ds0 /\ Forall2 (fun s d => d_obs d = ts_obs s /\ d_w d = ts_w s) sets ds0 /\
    forall is s, nth_error sets is = Some s -> exists lo hi F, phase_parts addr ph (cmem st) fuel is s lo hi F /\
      forall p ds, f_theory O p = Ok ds -> exists d, nth_error ds is = Some d /\ d_lo d = lo /\ d_hi d = hi /\ forall i, (lo <= i <= hi)%nat -> d_pdf d i = lsum (fun ip => scale_of addr st (ucons h) p ip * F ip i) (seq 0 (length ph)).
Proof.
  intros st AP BO SO RD NP. apply scale_linear; auto. destruct SO as [ND H]. apply dinv_run; auto. apply Forall_forall. intros [a c] I. cbn. apply (H a c I).
Qed.
Theorem scale_refined addr ph sets mem (h : list (uop R)) npar o : let st := crun Nm Rbuiltins (cinit mem) (map to_cop h) in
  apart addr (atoms_in ph) (length sets) -> blocks_ok ph -> scales_only addr (length ph) st (ucons h) ->
  ready addr ph sets (cmem st) -> npar = (phase_size (atoms_in ph) + 3 * length sets)%nat -> (forall s i, In s sets -> 0 <= ts_w s i) ->
  exists f0, forall fuel, (f0 <= fuel)%nat -> exists ds0, let O := theory_object addr Nm Rbuiltins fuel ph sets npar st o in
  f_theory O (pars_of st) = Ok ds0 /\ forall toler lfuel running c tx, fresh running c -> (101 <= lfuel)%nat -> ~ dependent O ds0 ->
  exists c' x' q cmin, ls_refine toler lfuel running c (tx, O) = (false, c', x', Ok tt) /\
    least O q cmin /\ (forall q' c1, least O q' c1 -> q' = q) /\
    let p := f_p (snd x') in let n := c_iter c' in
    (4 <= n <= 100)%nat /\ allowed O p /\ spread O ds0 p q <= spread O ds0 (f_p O) q /\
    cmin <= f_chisq (snd x') <= cmin + / 10 ^ (n + 2) / 4 * spread O ds0 (f_p O) q /\
    forall k, conditioned O ds0 k -> spread O ds0 p q <= (k ^ n * shrink n) * (k ^ n * shrink n) * spread O ds0 (f_p O) q.
Proof.
  intros st AP BO SO RD NP W. destruct (scale_session addr ph sets mem h npar o AP BO SO RD NP) as (f0 & X). exists f0. intros fuel Hf. destruct (X fuel Hf) as (ds0 & S & L & DD & _). exists ds0. intros O. fold st O in S, L.
  assert (FP : f_p O = pars_of st) by (unfold O, theory_object; destruct (theory_setup _ _ _ _ _ _ _); reflexivity).
  split. rewrite <- FP. apply L.
  intros toler lfuel running c tx FR LF ND. apply least_squares; auto. intros d i I _. clear - DD W I. revert W I. induction DD as [|t d' sets ds [_ E] _ IH]; intros W I. destruct I. destruct I as [->|I]. rewrite E. apply W. left; auto. apply IH; auto. intros; apply W; right; auto.
Qed.
Theorem scale_sum addr ph sets mem (h : list (uop R)) npar o : let st := crun Nm Rbuiltins (cinit mem) (map to_cop h) in
  apart addr (atoms_in ph) (length sets) -> blocks_ok ph -> scales_only addr (length ph) st (ucons h) ->
  ready addr ph sets (cmem st) -> npar = (phase_size (atoms_in ph) + 3 * length sets)%nat ->
  exists f0, forall fuel, (f0 <= fuel)%nat -> forall is s, nth_error sets is = Some s -> exists lo hi F, phase_parts addr ph (cmem st) fuel is s lo hi F /\
    forall p ds, f_theory (theory_object addr Nm Rbuiltins fuel ph sets npar st o) p = Ok ds ->
      exists d, nth_error ds is = Some d /\ d_lo d = lo /\ d_hi d = hi /\
        forall i, (lo <= i <= hi)%nat -> d_pdf d i = lsum (fun ip => scale_of addr st (ucons h) p ip * F ip i) (seq 0 (length ph)).
Proof.
  intros st AP BO SO RD NP. destruct (scale_session addr ph sets mem h npar o AP BO SO RD NP) as (f0 & X). exists f0. intros fuel Hf. destruct (X fuel Hf) as (ds0 & _ & _ & _ & P). exact P.
Qed.
Theorem scale_is_linear addr ph sets mem (h : list (uop R)) npar o : let st := crun Nm Rbuiltins (cinit mem) (map to_cop h) in
  apart addr (atoms_in ph) (length sets) -> blocks_ok ph -> scales_only addr (length ph) st (ucons h) ->
  ready addr ph sets (cmem st) -> npar = (phase_size (atoms_in ph) + 3 * length sets)%nat ->
  exists f0, forall fuel, (f0 <= fuel)%nat -> exists ds0, let O := theory_object addr Nm Rbuiltins fuel ph sets npar st o in
    f_setup O = Ok tt /\ linear O ds0 /\ Forall2 (fun s d => d_obs d = ts_obs s /\ d_w d = ts_w s) sets ds0.
Proof.
  intros st AP BO SO RD NP. destruct (scale_session addr ph sets mem h npar o AP BO SO RD NP) as (f0 & X). exists f0. intros fuel Hf. destruct (X fuel Hf) as (ds0 & A & B & C & _). exists ds0. split; [exact A|split; [exact B|exact C]].
Qed.
