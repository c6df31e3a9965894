(** Refined phase scale factors: the calculation is linear in the parameters. *)
From Coq Require Import List Arith ZArith Reals Bool Lia Lra FunctionalExtensionality.
From Verif Require Import Base RSum Util ParamModel ParamProof ParserModel ParserSpec ParserDeriv MathModel MathSpec MathProof MatrixModel MatrixProof ConModel ConSpec ConProof ConHist ConReal GaussSpec MetricModel PdfModel PdfSpec LayoutModel LayoutSpec LayoutProof DerivModel DerivSpec DerivRow DerivFinal LsModel LsSpec LinSpec TheoryModel TheorySpec TheoryMem ScaleCols ScaleSpec ScaleMem ScaleLoad.
Import ListNotations.
Local Open Scope R_scope.

(** ** sums *)
Lemma lsum_zero {A} (f : A -> R) l : (forall a, In a l -> f a = 0) -> lsum f l = 0.
Proof. intros H. rewrite (lsum_ext _ (fun _ => 0 * 0)). rewrite lsum_scal. ring. intros a I. rewrite H; auto. ring. Qed.
Lemma lsum_swap {A B} (f : A -> B -> R) l l' : lsum (fun a => lsum (f a) l') l = lsum (fun b => lsum (fun a => f a b) l) l'.
Proof.
  induction l as [|a l IH]. symmetry. apply lsum_zero. intros; reflexivity.
  change (lsum (f a) l' + lsum (fun a => lsum (f a) l') l = lsum (fun b => f a b + lsum (fun a => f a b) l) l'). rewrite IH. symmetry. apply lsum_plus.
Qed.
Lemma S1_lsum n f : S1 n f = lsum f (seq 1 n).
Proof. unfold S1. rewrite <- lsum_seq, <- seq_shift. induction (seq 0 n) as [|a l IH]; auto. cbn [map]. unfold lsum in *. simpl. rewrite IH. reflexivity. Qed.

(** ** the table of constraints *)
Lemma find_at a : forall l j e, NoDup (map cvar l) -> nth_error l j = Some e -> cvar e = a -> find_var a l = Some j.
Proof.
  induction l as [|x l IH]; intros [|j] e ND E H; cbn in *; try discriminate.
  - inversion E; subst. rewrite Nat.eqb_refl. reflexivity.
  - inversion ND as [|? ? NI ND']; subst. destruct (Nat.eqb_spec (cvar x) (cvar e)) as [Q|Q]. exfalso. apply NI. rewrite Q. apply in_map. eapply nth_error_In; eauto. rewrite (IH j e); auto.
Qed.
Lemma vfind_at l j e : NoDup (map cvar l) -> nth_error l j = Some e -> vfind l (cvar e) = if cref e then Some j else None.
Proof. intros ND E. unfold vfind. rewrite (find_at (cvar e) l j e); auto. rewrite E. reflexivity. Qed.
Lemma vfind_inv l a j : vfind l a = Some j -> exists e, nth_error l j = Some e /\ cvar e = a /\ cref e = true.
Proof.
  unfold vfind. destruct (find_var a l) as [i|] eqn:F; [|discriminate]. destruct (find_var_some _ _ _ F) as (e & E & Q). rewrite E. destruct (cref e) eqn:C; [|discriminate]. intros H; inversion H; subst. eauto.
Qed.
Lemma last_con_nodup : forall cs a c, NoDup (map fst cs) -> In (a, c) cs -> last_con a cs = Some c.
Proof.
  induction cs as [|[b c'] cs IH]; intros a c ND I; cbn in *. destruct I. inversion ND as [|? ? NI ND']; subst. destruct I as [I|I].
  - inversion I; subst. destruct (last_con a cs) eqn:E. apply last_con_in in E. exfalso. apply NI. apply (in_map fst) in E. exact E. rewrite Nat.eqb_refl. reflexivity.
  - rewrite (IH a c); auto.
Qed.
(** ** wrapping *)
Lemma wrap_local addr m1 m2 a : forall l, m1 a = m2 a -> wloop addr l m1 a = wloop addr l m2 a.
Proof.
  intros l. revert m1 m2. induction l as [|x l IH]; intros m1 m2 E; auto. unfold wloop. cbn [fold_left]. apply IH. unfold mem_set. destruct (Nat.eqb_spec a (waddr addr x)) as [<-|]; auto. rewrite E; auto.
Qed.

Section Final.
Variables (addr : rvar -> nat) (ph : list cphase) (sets : list tset) (cs : list (nat * con)).
Notation nph := (length ph).
Notation nset := (length sets).
Notation natoms := (atoms_in ph).
Notation Nm := (Rnum Rlit).
Hypothesis AP : apart addr natoms nset.
Hypothesis BO : blocks_ok ph.

Lemma scale_exists ip : (ip < nph)%nat -> exists_var natoms nset (PV ip FPscale).
Proof. intros H. unfold exists_var, atoms_in. rewrite map_length. simpl. auto. Qed.
Lemma wrap_other mem v : exists_var natoms nset v -> (forall ip ia i, v <> AV ip ia (FPos i)) -> wrap_mem addr ph mem (addr v) = mem (addr v).
Proof.
  intros V H. rewrite wrap_loop. destruct (wloop_at addr ph nset AP BO (addr v) (wrap_list ph) mem (incl_refl _)) as [E|(x & I & A & _)]; auto.
  exfalso. pose proof (wrap_in ph x I) as X. destruct x as [[[ip' ia] i] icc]. destruct X as (p & P & L & B & _). cbn [waddr] in A. apply (H ip' ia i). symmetry. apply AP; auto.
  unfold exists_var, atoms_in. rewrite map_length. split. apply nth_error_Some; congruence. split; [|exact B]. rewrite (nth_error_nth _ _ _ (map_nth_error (fun p => length (cp_atoms p)) _ _ P)). auto.
Qed.
Lemma wrap_scale mem ip : (ip < nph)%nat -> wrap_mem addr ph mem (addr (PV ip FPscale)) = mem (addr (PV ip FPscale)).
Proof.
  intros H. apply wrap_other. apply scale_exists; auto. intros; discriminate.
Qed.

(** the state from which the calculations start; memory that the constraints do not touch *)
Variables (s : cstate R) (mem0 : nat -> R) (ly : layout) (npar : nat).
Hypothesis D : ConReal.dinv Nm s cs.
Hypothesis SO : scales_only addr nph s cs.
Hypothesis M0 : forall a, ~ In a (map fst cs) -> cmem s a = mem0 a.
Hypothesis RD : ready addr ph sets mem0.
Hypothesis CV : map cvar (cons_ s) = map fst cs.
Hypothesis CR : map cref (cons_ s) = vrefs s cs.
Let find v := vfind (cons_ s) (addr v).
Hypothesis LY : fit_setup find natoms nset npar = Ok ly.
Let np := length (pval (ctab s)).
Let nc := length cs.

Lemma NK a c : In (a, c) cs -> con_ok c /\ numbers_ok c /\ affine s c.
Proof. intros I. destruct SO as [_ H]. destruct (H a c I) as (_ & A & B & C). auto. Qed.
Definition cn (j : nat) : con := snd (nth j cs (0%nat, KPar KIdent 0)).
Lemma cn_nth j : (j < nc)%nat -> exists a, nth_error cs j = Some (a, cn j).
Proof. intros H. exists (fst (nth j cs (0%nat, KPar KIdent 0))). unfold cn. rewrite <- surjective_pairing. apply nth_error_nth'. exact H. Qed.
Lemma phase_numbers : exists ipof : nat -> nat, forall j a c, nth_error cs j = Some (a, c) -> (ipof j < nph)%nat /\ a = addr (PV (ipof j) FPscale).
Proof.
  destruct SO as [_ H]. assert (G : exists l, forall j a c, nth_error cs j = Some (a, c) -> (nth j l 0 < nph)%nat /\ a = addr (PV (nth j l 0%nat) FPscale)).
  { clear - H. induction cs as [|[a c] l IH]. exists []. intros [|j]; discriminate. destruct IH as (r & R). intros; apply (H a0 c0); right; auto.
    destruct (H a c) as ((ip & I1 & I2) & _). left; auto. exists (ip :: r). intros [|j] b d E. inversion E; subst; auto. exact (R j b d E). }
  destruct G as (l & G). exists (fun j => nth j l 0%nat). exact G.
Qed.
Variable ipof : nat -> nat.
Hypothesis IP : forall j a c, nth_error cs j = Some (a, c) -> (ipof j < nph)%nat /\ a = addr (PV (ipof j) FPscale).

Lemma ip_inj j j' : (j < nc)%nat -> (j' < nc)%nat -> ipof j = ipof j' -> j = j'.
Proof.
  intros H H' E. destruct (cn_nth j H) as (a & A). destruct (cn_nth j' H') as (a' & A'). destruct (IP _ _ _ A) as [_ X]. destruct (IP _ _ _ A') as [_ X'].
  destruct SO as [ND _]. rewrite NoDup_nth_error in ND. apply ND. rewrite map_length; auto. rewrite (map_nth_error fst _ _ A), (map_nth_error fst _ _ A'). cbn. congruence.
Qed.
Lemma cons_nth j : (j < nc)%nat -> exists e, nth_error (cons_ s) j = Some e /\ cvar e = addr (PV (ipof j) FPscale) /\ cref e = nth j (vrefs s cs) false.
Proof.
  intros H. assert (L : length (cons_ s) = nc) by (rewrite <- (map_length cvar), CV, map_length; auto).
  destruct (nth_error (cons_ s) j) as [e|] eqn:E. 2:{ apply nth_error_None in E. lia. } exists e. split; auto. destruct (cn_nth j H) as (a & A). destruct (IP _ _ _ A) as [_ X].
  split. { pose proof (map_nth_error cvar _ _ E) as Q. rewrite CV, (map_nth_error fst _ _ A) in Q. cbn in Q. congruence. }
  rewrite <- CR. symmetry. apply nth_error_nth. apply (map_nth_error cref _ _ E).
Qed.
Lemma find_scale j : (j < nc)%nat -> nth j (vrefs s cs) false = true -> find (PV (ipof j) FPscale) = Some j.
Proof.
  intros H V. destruct (cons_nth j H) as (e & E & A & B). unfold find. rewrite <- A. rewrite (vfind_at (cons_ s) j e); auto. rewrite B, V. reflexivity. rewrite CV. apply SO.
Qed.
Lemma vref_len : length (vrefs s cs) = nc. Proof. unfold vrefs. apply map_length. Qed.
Lemma cols : columns_fit find natoms nset (vrefs s cs).
Proof.
  split.
  - intros v w c V W' F1 F2. apply vfind_inv in F1 as (e & E1 & E2 & _). apply vfind_inv in F2 as (e' & E1' & E2' & _). apply AP; auto. congruence.
  - intros v c V F1. apply vfind_inv in F1 as (e & E1 & E2 & E3). rewrite <- CR. rewrite (map_nth_error cref _ _ E1), E3. reflexivity.
Qed.
Lemma lay_right : layout_right find natoms nset ly.
Proof.
  destruct (Nat.eq_dec npar (phase_size natoms + 3 * nset)) as [E|E].
  - destruct (proj1 (layout_ok find natoms nset npar) E) as (ly' & E' & R). congruence.
  - pose proof (proj2 (layout_ok find natoms nset npar) E). congruence.
Qed.

(** columns no variable uses *)
Lemma unref_unused j : (j < nc)%nat -> nth j (vrefs s cs) false = false -> unused (vrefs s cs) ly j.
Proof.
  intros H V. assert (NE : nth_error (vrefs s cs) j = Some false) by (rewrite <- V; apply nth_error_nth'; rewrite vref_len; auto).
  split. rewrite vref_len; auto. split. congruence. intros I. apply In_nth_error in I as (k & K). pose proof lay_right as LR.
  destruct (ref_var find natoms nset (ly_refvar ly) ltac:(apply LR) ltac:(intros v V'; destruct LR as (_ & _ & X & _); apply X; auto) k j K) as (v & V1 & _ & V3).
  destruct cols as [_ C2]. rewrite (C2 v j V1 V3) in NE. discriminate.
Qed.

(** ** one data set *)
Let ps := phases_in addr ph mem0.
Variable des : list cderived.
Hypothesis LD : length des = length ps.
Hypothesis DE : forall i p de, nth_error ps i = Some p -> nth_error des i = Some de -> phase_lattice p = Ok de.
Lemma ps_len : length ps = nph.
Proof. unfold ps, phases_in, load_phases. rewrite map_length, combine_length, seq_length. lia. Qed.
Lemma ps_nth i p : nth_error ps i = Some p -> exists q, nth_error ph i = Some q /\ length (cp_atoms p) = length (cp_atoms q).
Proof.
  intros E. unfold ps, phases_in, load_phases in E. rewrite nth_error_map in E. destruct (nth_error (combine (seq 0 nph) ph) i) as [[k q]|] eqn:C; [|discriminate]. cbn in E. inversion E; subst p. exists q.
  assert (X : (i < length (combine (seq 0 nph) ph))%nat) by (apply nth_error_Some; congruence). rewrite combine_length, seq_length, Nat.min_id in X.
  rewrite (nth_error_nth' _ (0%nat, q)) in C by (rewrite combine_length, seq_length; lia). rewrite combine_nth in C by (rewrite seq_length; auto). assert (C2 : nth i ph q = q) by congruence. split.
  transitivity (Some (nth i ph q)). apply nth_error_nth'; auto. congruence. cbn. rewrite map_length, combine_length, seq_length. lia.
Qed.

(** what is known of a data set before the parameters are *)
Record known : Type := mkKnown { k_f1 : Z; k_f2 : Z; k_F : nat -> Z -> R }.
Definition col_val (F : nat -> Z -> R) (g : Z) (j : nat) : R := if nth j (vrefs s cs) false then F (ipof j) g else 0.
Definition seen (x : nat -> R) (k : known) (r : tres) : Prop :=
  r_lo r = k_f1 k /\ r_hi r = k_f2 k /\ forall g, (k_f1 k <= g <= k_f2 k)%Z ->
  el (r_pdf r) g = Some (lsum (fun ip => x ip * k_F k ip g) (seq 0 nph)) /\
  forall l, (1 <= l <= np)%nat -> nth (l - 1) (pfree (ctab s)) false = true ->
    mx_get (r_b r) (Z.to_nat g) (l - 1) = Ok (Some (lsum (fun j => col_val (k_F k) g j * slope s (cn j) l) (seq 0 nc))).

Definition known_of (f0 : nat) (x : nat * tset) (k : known) : Prop := let (is, st) := x in
  (0 <= k_f1 k <= k_f2 k)%Z /\ forall x fuel, (f0 <= fuel)%nat -> exists t, determine fuel (data_in addr mem0 is st) (scaled x 0 (entries (combine ps des) (ts_sel st))) = Ok (k_f1 k, k_f2 k, t) /\
    forall g, (k_f1 k <= g <= k_f2 k)%Z -> el t g = Some (lsum (fun ip => x ip * k_F k ip g) (seq 0 nph)).
Lemma known_le f0 f1 x k : (f0 <= f1)%nat -> known_of f0 x k -> known_of f1 x k.
Proof. destruct x as [is st]. intros L [A B]. split; auto. intros x fuel Hf. apply B. lia. Qed.
Lemma set_scaled is st : nth_error sets is = Some st -> let d := data_in addr mem0 is st in
  exists f0 k, known_of f0 (is, st) k /\ forall x fuel dv, (f0 <= fuel)%nat -> mwf dv -> mrows dv = nc -> mcols dv = np ->
  (forall j a c l, nth_error cs j = Some (a, c) -> (1 <= l <= np)%nat -> nth (l - 1) (pfree (ctab s)) false = true -> mx_get dv j (l - 1) = Ok (slope s c l)) ->
  exists r, set_result fuel ly (vrefs s cs) dv is d (scaled x 0 (entries (combine ps des) (ts_sel st))) = Ok r /\ seen x k r.
Proof.
  intros E d. destruct RD as [_ R]. destruct (R is st E) as (G & O & GF & LS & SP). fold d in G, O, GF, SP. fold ps in SP. set (psel := entries (combine ps des) (ts_sel st)).
  pose proof ps_len as PL. assert (LS' : length (ts_sel st) = length ps) by congruence.
  assert (PN : length psel = nph) by (unfold psel; rewrite entries_len; auto).
  destruct (scale_set d psel G O GF) as (f0 & lo & hi & f1 & f2 & F & PR & X).
  { intros e I. apply selected_nth in I as (i & I). unfold psel in I. rewrite entries_nth in I by auto. destruct (nth_error ps i) as [p|] eqn:E1; [|discriminate]. destruct (nth_error des i) as [de|] eqn:E2; [|discriminate].
    destruct (nth_error (ts_sel st) i) as [[[gi gj]|]|] eqn:E3; try discriminate. inversion I; subst e. split. unfold up_to_date. cbn. eapply DE; eauto. cbn. eapply SP; eauto. }
  exists f0, (mkKnown f1 f2 F). destruct PR as (_ & _ & _ & _ & PR1 & PR2).
  assert (CF : DerivSpec.counts_fit psel natoms).
  { intros ip e I. unfold psel in I. rewrite entries_nth in I by auto. destruct (nth_error ps ip) as [p|] eqn:E1; [|discriminate]. destruct (nth_error des ip) as [de|] eqn:E2; [|discriminate].
    destruct (nth_error (ts_sel st) ip) as [[[gi gj]|]|] eqn:E3; try discriminate. inversion I; subst e. cbn. destruct (ps_nth ip p E1) as (q & Q1 & Q2). rewrite Q2. unfold atoms_in. apply (map_nth_error (fun p => length (cp_atoms p)) _ _ Q1). }
  assert (IS : (is < nset)%nat) by (apply nth_error_Some; congruence).
  split.
  { split. cbn. lia. intros x fuel Hf. destruct (X find natoms nset npar ly (vrefs s cs) is CF IS LY cols x fuel Hf) as (t & A & ET & HT & _). exists t. split; auto. cbn [k_f1 k_f2 k_F]. intros g Hg. rewrite HT by lia. rewrite PN. reflexivity. }
  intros x fuel dv Hf WD MR MC SL.
  destruct (X find natoms nset npar ly (vrefs s cs) is CF IS LY cols x fuel Hf) as (t & A & ET & HT & EA & GA & HA).
  unfold set_result. rewrite ET. cbn [obind]. rewrite EA. cbn [obind].
  destruct (product (vrefs s cs) ly (Z.to_nat (hi + 1)) A dv GA WD ltac:(rewrite vref_len; auto)) as (B & EB & HB). rewrite EB. cbn [omap].
  exists (mkRes f1 f2 t B). split; auto. split; auto. split; auto. cbn [r_pdf r_b k_f1 k_f2 k_F]. intros g Hg. split.
  { rewrite HT by lia. rewrite PN. reflexivity. }
  intros l Hl Fr. rewrite <- vref_len. apply (HB (Z.to_nat g) (l - 1)%nat (col_val F g) (fun j => slope s (cn j) l)).
  - lia.
  - rewrite MC. lia.
  - intros c Hc. rewrite vref_len in Hc. destruct (cn_nth c Hc) as (a & CN). split. 2: eapply SL; eauto.
    unfold col_val. destruct GA as [LA GA]. assert (NR : nth_error A (Z.to_nat g) = Some (nth (Z.to_nat g) A [])) by (apply nth_error_nth'; lia). destruct (nth c (vrefs s cs) false) eqn:V.
    + destruct (IP _ _ _ CN) as [IPc _]. pose proof (HA (ipof c) c g (scale_exists (ipof c) IPc) (find_scale c Hc V) ltac:(lia)) as Q. unfold el, DerivSpec.column in Q.
      rewrite (nth_error_nth _ _ _ (map_nth_error (fun row => nth c row None) _ _ NR)) in Q. exact Q.
    + apply nth_error_nth. apply (GA (nth (Z.to_nat g) A [])). eapply nth_error_In; eauto. apply unref_unused; auto.
Qed.

(** ** all data sets *)
Definition xs (p : nat -> R) (ip : nat) : R := match last_con (addr (PV ip FPscale)) cs with Some c => val s c p | None => mem0 (addr (PV ip FPscale)) end.
Definition good_dv (dv : matrix R) : Prop := mwf dv /\ mrows dv = nc /\ mcols dv = np /\
  forall j a c l, nth_error cs j = Some (a, c) -> (1 <= l <= np)%nat -> nth (l - 1) (pfree (ctab s)) false = true -> mx_get dv j (l - 1) = Ok (slope s c l).
Lemma all_sets : forall l, (forall is st, In (is, st) l -> nth_error sets is = Some st) -> exists f0 ks, Forall2 (known_of f0) l ks /\
  forall x fuel dv mem acc, (f0 <= fuel)%nat -> good_dv dv -> (forall is d, (is < nset)%nat -> load_set addr mem is d = load_set addr mem0 is d) ->
  exists rs, ofold (fun acc (x0 : nat * tset) => let (is, s0) := x0 in
       omap (fun r => acc ++ [r]) (set_result fuel ly (vrefs s cs) dv is (load_set addr mem is (ts_data s0)) (entries (combine (rescale x 0 ps) des) (ts_sel s0)))) l acc = Ok (acc ++ rs) /\ Forall2 (seen x) ks rs.
Proof.
  induction l as [|[is st] l IH]; intros H.
  - exists 0%nat, []. split. constructor. intros. exists []. cbn. rewrite app_nil_r. split; auto.
  - pose proof (H is st (or_introl eq_refl)) as E. destruct (set_scaled is st E) as (f0 & k & K & X). destruct IH as (f1 & ks & KS & Y). { intros i t I. apply H. right; auto. }
    assert (KM : forall l ks, Forall2 (known_of f1) l ks -> Forall2 (known_of (Nat.max f0 f1)) l ks). { intros l1 k1 FK. induction FK; constructor; auto. apply (known_le f1); auto. lia. }
    exists (Nat.max f0 f1), (k :: ks). split. { constructor. apply (known_le f0); auto. lia. auto. } intros x fuel dv mem acc Hf (G1 & G2 & G3 & G4) M.
    cbn [ofold]. rewrite (M is) by (apply nth_error_Some; congruence). rewrite entries_scaled. destruct (X x fuel dv) as (r & R1 & R2); auto. lia. unfold data_in in R1. rewrite R1. cbn [omap obind].
    destruct (Y x fuel dv mem (acc ++ [r])) as (rs & Q1 & Q2); auto. lia. repeat split; auto. exists (r :: rs). rewrite Q1, <- app_assoc. split; auto.
Qed.
Lemma rescale_ext x y : forall l k, (forall i, (k <= i < k + length l)%nat -> x i = y i) -> rescale x k l = rescale y k l.
Proof. induction l as [|p l IH]; intros k H; cbn [rescale]; auto. cbn [length] in H. rewrite H by lia. f_equal. apply IH. intros i Hi. apply H. lia. Qed.
Lemma in_numbered : forall {A} (l : list A) k i a, In (i, a) (combine (seq k (length l)) l) -> (k <= i)%nat /\ nth_error l (i - k) = Some a.
Proof.
  induction l as [|b l IH]; intros k i a I. destruct I. cbn [length seq combine] in I. destruct I as [I|I]. inversion I; subst. rewrite Nat.sub_diag. auto.
  apply IH in I as [L E]. split. lia. replace (i - k)%nat with (S (i - S k)) by lia. exact E.
Qed.
Hypothesis LAT : forall x k acc, ofold (fun acc p => obind (phase_lattice p) (fun de => Ok (acc ++ [(p, de)]))) (rescale x k ps) acc = Ok (acc ++ combine (rescale x k ps) des).
Lemma theory_at : exists f0 ks, Forall2 (known_of f0) (combine (seq 0 nset) sets) ks /\
  forall fuel p, (f0 <= fuel)%nat -> exists rs, snd (theory_diff addr Nm Rbuiltins fuel ly ph sets (with_pars s p)) = Ok rs /\ Forall2 (seen (xs p)) ks rs.
Proof.
  destruct (all_sets (combine (seq 0 nset) sets)) as (f0 & ks & K & X). { intros is st I. apply in_numbered in I as [_ I]. rewrite Nat.sub_0_r in I. exact I. }
  exists f0, ks. split; auto. intros fuel p Hf.
  destruct (fill_at s cs D NK p) as (s' & F & D' & T & M & CV' & CR' & WD & MR & MC & SL). unfold theory_diff. rewrite F. cbv zeta. cbn [snd cons_ cdvdp ctab].
  set (mem := wrap_mem addr ph (cmem s')).
  assert (MS : forall a, ~ In a (map fst cs) -> cmem s' a = mem0 a).
  { intros a NI. rewrite M. destruct (last_con a cs) eqn:L. apply last_con_in in L. exfalso. apply NI. apply (in_map fst) in L. exact L. apply M0; auto. }
  assert (EQ : forall v, exists_var natoms nset v -> (forall ip, v <> PV ip FPscale) -> mem (addr v) = wrap_mem addr ph mem0 (addr v)).
  { intros v V NS. unfold mem. rewrite !wrap_loop. apply wrap_local. apply MS. intros I. apply in_map_iff in I as ([a c] & E & I). cbn in E. destruct SO as [_ H]. destruct (H a c I) as ((ip & I1 & I2) & _).
    apply (NS ip). apply AP; auto. apply scale_exists; auto. congruence. }
  assert (LP : load_phases addr mem ph = rescale (xs p) 0 ps).
  { unfold load_phases. rewrite (load_all addr natoms nset mem (wrap_mem addr ph mem0) EQ ph 0). 2:{ intros i q Q. cbn. unfold atoms_in. apply (map_nth_error (fun p => length (cp_atoms p)) _ _ Q). }
    change (map (load_phase addr (wrap_mem addr ph mem0)) (combine (seq 0 nph) ph)) with ps. apply rescale_ext. intros ip Hip. rewrite ps_len in Hip. unfold mem. rewrite wrap_scale by lia. unfold xs. rewrite M. destruct (last_con (addr (PV ip FPscale)) cs) eqn:L; auto. apply M0. apply last_con_none; auto. }
  rewrite LP, LAT. cbn [obind app]. rewrite CR'.
  destruct (X (xs p) fuel (cdvdp s') mem []) as (rs & E & S); auto. { repeat split; auto. } 
  { intros is d His. rewrite (load_data addr natoms nset mem (wrap_mem addr ph mem0) EQ is d His). unfold load_set. rewrite !wrap_other; auto; intros; discriminate. }
  exists rs. split; auto.
Qed.

(** ** linear in the free parameters *)
Lemma scale_moves p q F g : (forall l, (1 <= l <= np)%nat -> free_of s l = false -> p l = q l) ->
  lsum (fun ip => xs p ip * F ip g) (seq 0 nph) - lsum (fun ip => xs q ip * F ip g) (seq 0 nph) =
  sum_free (free_of s) np (fun l => lsum (fun j => col_val F g j * slope s (cn j) l) (seq 0 nc) * (p l - q l)).
Proof.
  intros AG. pose proof D as (W & _). set (dl j := val s (cn j) p - val s (cn j) q).
  assert (DL : forall j, (j < nc)%nat -> dl j = S1 np (fun l => slope s (cn j) l * (p l - q l))). { intros j Hj. destruct (cn_nth j Hj) as (a & A). apply val_moves; auto. apply (NK a). eapply nth_error_In; eauto. }
  assert (UR : forall j, (j < nc)%nat -> nth j (vrefs s cs) false = false -> dl j = 0).
  { intros j Hj V. unfold dl. rewrite (val_agree s W (cn j) p q). ring. intros n k I P. destruct (cn_nth j Hj) as (a & A).
    assert (Lk : (k < length (pfree (ctab s)))%nat). { unfold parfind in P. apply find_pos_lt in P. destruct W as (_ & W2 & _). lia. }
    apply AG. { unfold np. destruct W as (W1 & W2 & _). lia. } unfold free_of.
    unfold vrefs in V. rewrite (nth_error_nth _ _ _ (map_nth_error (fun ac => existsb (is_free (ctab s)) (con_pars (snd ac))) _ _ A)) in V. cbn [snd] in V.
    destruct (nth k (pfree (ctab s)) false) eqn:Fk; auto. exfalso. apply not_true_iff_false in V. apply V. apply existsb_exists. exists n. split; auto. unfold is_free. rewrite P. rewrite (nth_error_nth' _ false Lk), Fk. reflexivity. }
  assert (XD : forall ip, (ip < nph)%nat -> xs p ip - xs q ip = lsum (fun j => if (ipof j =? ip)%nat then dl j else 0) (seq 0 nc)).
  { intros ip Hip. unfold xs. destruct (last_con (addr (PV ip FPscale)) cs) as [c|] eqn:L.
    - apply last_con_in in L. apply In_nth_error in L as (j & J). assert (Hj : (j < nc)%nat) by (apply nth_error_Some; congruence). destruct (IP _ _ _ J) as [I1 I2].
      assert (EI : ipof j = ip). { assert (Q : PV ip FPscale = PV (ipof j) FPscale) by (apply AP; auto; apply scale_exists; auto). congruence. }
      rewrite (lsum_once (fun k => k) _ j). 2: rewrite map_id; apply seq_NoDup. 2: apply in_seq; lia.
      2:{ intros j' I NE. apply in_seq in I. destruct (Nat.eqb_spec (ipof j') ip); auto. exfalso. apply NE. apply ip_inj; auto. lia. congruence. }
      rewrite EI, Nat.eqb_refl. unfold dl, cn. rewrite (nth_error_nth _ _ _ J). reflexivity.
    - rewrite lsum_zero. ring. intros j I. apply in_seq in I. destruct (Nat.eqb_spec (ipof j) ip) as [E|]; auto. exfalso. apply (last_con_none _ _ L). destruct (cn_nth j) as (a & A). lia. destruct (IP _ _ _ A) as [_ I2].
      rewrite <- E, <- I2. apply (in_map fst) with (x := (a, cn j)). eapply nth_error_In; eauto. }
  transitivity (lsum (fun j => col_val F g j * dl j) (seq 0 nc)).
  - transitivity (lsum (fun ip => lsum (fun j => (if (ipof j =? ip)%nat then dl j else 0) * F ip g) (seq 0 nc)) (seq 0 nph)).
    { rewrite (lsum_ext (fun ip => lsum _ (seq 0 nc)) (fun ip => xs p ip * F ip g + (-1) * (xs q ip * F ip g))). rewrite lsum_plus, lsum_scal. ring.
      intros ip I. apply in_seq in I. rewrite (lsum_ext _ (fun j => F ip g * (if (ipof j =? ip)%nat then dl j else 0))) by (intros; ring). rewrite lsum_scal, <- XD by lia. ring. }
    rewrite lsum_swap. apply lsum_ext. intros j I. apply in_seq in I. destruct (cn_nth j) as (a & A). lia. destruct (IP _ _ _ A) as [I1 _].
    rewrite (lsum_ext _ (fun ip => dl j * (if (ip =? ipof j)%nat then F ip g else 0))). 2:{ intros ip _. rewrite Nat.eqb_sym. destruct (ip =? ipof j)%nat; ring. }
    rewrite lsum_scal, (pick_one (fun ip => F ip g)). destruct (Nat.ltb_spec (ipof j) nph); [|lia]. unfold col_val. destruct (nth j (vrefs s cs) false) eqn:V. ring. rewrite (UR j) by (auto; lia). ring.
  - unfold sum_free. rewrite (S1_ext np _ (fun l => lsum (fun j => col_val F g j * (slope s (cn j) l * (p l - q l))) (seq 0 nc))).
    + rewrite S1_lsum, lsum_swap. apply lsum_ext. intros j I. apply in_seq in I. rewrite lsum_scal, <- S1_lsum, <- DL by lia. reflexivity.
    + intros l Hl. destruct (free_of s l) eqn:Fr.
      * rewrite (lsum_ext (fun j => col_val F g j * (slope s (cn j) l * (p l - q l))) (fun j => (p l - q l) * (col_val F g j * slope s (cn j) l))) by (intros; ring). rewrite lsum_scal. ring.
      * rewrite (AG l Hl Fr). symmetry. apply lsum_zero. intros; ring.
Qed.
Lemma point_range st k x r i : (0 <= k_f1 k <= k_f2 k)%Z -> seen x k r -> In i (points (see st r)) -> (k_f1 k <= Z.of_nat i <= k_f2 k)%Z.
Proof. intros K (S1' & S2 & _) I. unfold points, see in I. cbn [d_lo d_hi] in I. apply in_seq in I. rewrite S1', S2 in I. lia. Qed.
Lemma see_moved st k p q rp rq ia : (forall l, ia l = free_of s l) -> (0 <= k_f1 k <= k_f2 k)%Z -> seen (xs p) k rp -> seen (xs q) k rq -> (forall l, (1 <= l <= np)%nat -> free_of s l = false -> p l = q l) ->
  let d := see st rq in let d' := see st rp in d_lo d' = d_lo d /\ d_hi d' = d_hi d /\ forall i, In i (points d) -> d_obs d' i = d_obs d i /\ d_w d' i = d_w d i /\
    (forall l, (1 <= l <= np)%nat /\ ia l = true -> dpar d' i l = dpar d i l) /\ d_pdf d' i = d_pdf d i + along ia np d i (fun l => p l - q l).
Proof.
  intros IA K Sp Sq AG d d'. pose proof Sp as (P1 & P2 & P3). pose proof Sq as (Q1 & Q2 & Q3). unfold d, d'. cbn [see d_lo d_hi d_obs d_w]. rewrite P1, P2, Q1, Q2. split; auto. split; auto.
  intros i I. pose proof (point_range st k _ rq i K Sq I) as G. destruct (P3 _ G) as [PP PD]. destruct (Q3 _ G) as [QP QD]. rewrite Nat2Z.id in PD, QD. unfold el in PP, QP. rewrite Nat2Z.id in PP, QP.
  assert (FR : forall l, (1 <= l <= np)%nat -> ia l = true -> nth (l - 1) (pfree (ctab s)) false = true). { intros l Hl F'. rewrite IA in F'. unfold free_of in F'. destruct l as [|l]; [discriminate|]. replace (S l - 1)%nat with l by lia. exact F'. }
  split; auto. split; auto. split.
  - intros l [Hl Fl]. unfold dpar, see. cbn [d_fb]. rewrite (PD l Hl (FR l Hl Fl)), (QD l Hl (FR l Hl Fl)). reflexivity.
  - cbn [see d_pdf]. rewrite PP, QP. cbn [number]. pose proof (scale_moves p q (k_F k) (Z.of_nat i) AG) as E. unfold along. 
    transitivity (lsum (fun ip => xs q ip * k_F k ip (Z.of_nat i)) (seq 0 nph) + sum_free (free_of s) np (fun l => lsum (fun j => col_val (k_F k) (Z.of_nat i) j * slope s (cn j) l) (seq 0 nc) * (p l - q l))). lra.
    f_equal. unfold sum_free. apply S1_ext. intros l Hl. rewrite IA. destruct (free_of s l) eqn:Fl; auto. f_equal. unfold dpar, see. cbn [d_fb]. rewrite (QD l Hl). reflexivity. apply FR; auto. rewrite IA; auto.
Qed.
End Final.
