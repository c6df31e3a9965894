From Coq Require Import List ZArith Ascii Bool Lia Reals Lra FunctionalExtensionality.
From Verif Require Import Base ParamModel ParamProof ParserModel ParserLex ParserSafe ParserSpec
  ParserGram ParserProof ParserUsed Util MatrixModel MatrixProof ConModel ConSpec ConProof ConReal ErrorProof
  MathModel MetricModel PdfModel LayoutModel LayoutSpec DerivModel LsModel BondNear BondEx TheoryModel TheorySpec.
Import ListNotations.

Section Fill.
Context {T : Type} (N : numops T) (builtins : list (builtin T)).
Definition eqo (o : option nat) (k : nat) : bool := match o with Some j => j =? k | None => false end.
Definition writtenb (t : ptab T) (c : con) (k : nat) : bool :=
  match c with
  | KPar _ n => eqo (parfind t n) k
  | KForm _ e => existsb (fun n => eqo (parfind t n) k) (pars e) && match nth_error (pfree t) k with Some b => b | None => false end
  end.
Lemma eqo_true o k : eqo o k = true <-> o = Some k.
Proof. destruct o as [j|]; simpl. rewrite Nat.eqb_eq. split; congruence. split; discriminate. Qed.

Lemma store_derivs_keep (t : ptab T) i d : forall used iu r (m : matrix T) r' m',
  mwf m -> store_derivs t i used d iu r m = Ok (r', m') ->
  forall j k, j <> i \/ ~ In k used \/ nth_error (pfree t) k <> Some true -> mx_get m' j k = mx_get m j k.
Proof.
  induction used as [|u us IH]; intros iu r m r' m' W H j k C; simpl in H.
  - inversion H; subst; auto.
  - apply obind_ok in H as (b & B & H). destruct b.
    + apply obind_ok in H as (x & _ & H). apply obind_ok in H as (m1 & M & H).
      destruct (mx_set_wf _ _ _ _ _ W M) as (W1 & _ & _).
      rewrite (IH _ _ _ _ _ W1 H j k) by (simpl in C; tauto).
      apply (mx_set_same _ _ _ _ _ _ _ W M). intros Q. inversion Q; subst.
      unfold rd in B. destruct (nth_error (pfree t) u) eqn:E; [|discriminate]. inversion B; subst. simpl in C. intuition congruence.
    + apply (IH _ _ _ _ _ W H j k). simpl in C. tauto.
Qed.

Lemma fill_one_keep (s : cstate T) i s' r a c : fill_one N builtins s i = (s', r) -> mwf (cdvdp s) ->
  (forall e, nth_error (cons_ s) i = Some e -> holds e (a, c)) -> con_ok c ->
  forall j k, j <> i \/ writtenb (ctab s) c k = false -> mx_get (cdvdp s') j k = mx_get (cdvdp s) j k.
Proof.
  intros H M Hh OK. unfold fill_one in H. destruct (nth_error (cons_ s) i) as [e|] eqn:E.
  2:{ inversion H; subst; auto. }
  destruct (Hh e eq_refl) as [Ha Hc]. simpl in Hc.
  destruct c as [line tr|kk n].
  - destruct OK as (O1 & O2 & O3). rewrite Hc in H. destruct line as [|ch f]; [congruence|].
    destruct (parse N builtins (ctab s) (ch :: f)) as [[[v d] used]|x| |] eqn:P; try (inversion H; subst; simpl; auto; fail).
    destruct (store_derivs (ctab s) i used d 0 false (cdvdp s)) as [[r' m]|x| |] eqn:Es;
      inversion H; subst; simpl; auto.
    intros j k C. eapply store_derivs_keep; eauto. destruct C as [C|C]; auto. right.
    apply andb_false_iff in C as [C|C]. 2:{ right. destruct (nth_error (pfree (ctab s)) k); congruence. }
    left. intros I. destruct (parse_used N builtins (ctab s) _ tr v d used O2 P) as (_ & U). destruct (U k I) as (n & In_ & Q).
    assert (X : existsb (fun n => eqo (parfind (ctab s) n) k) (pars tr) = true). { apply existsb_exists. exists n. split; auto. apply eqo_true. auto. } congruence.
  - destruct Hc as (H1 & H2 & H3). rewrite H1, H2 in H.
    destruct (parfind (ctab s) n) as [k|] eqn:P. 2:{ inversion H; subst; simpl; auto. }
    destruct (nth_error (pfree (ctab s)) k) as [fr|]. 2:{ inversion H; subst; simpl; auto. }
    destruct (nth_error (pval (ctab s)) k) as [p|]. 2:{ inversion H; subst; simpl; auto. }
    assert (G : forall v dv, (match mx_set (cdvdp s) i k dv with
       | Ok m => (mkCst (ctab s) (set_ref i fr (cons_ s)) m (mem_set (cmem s) (cvar e) v), Ok tt)
       | _ => (mkCst (ctab s) (set_ref i false (cons_ s)) (cdvdp s) (cmem s), UB) end) = (s', r) ->
       forall j k, j <> i \/ writtenb (ctab s) (KPar kk n) k = false -> mx_get (cdvdp s') j k = mx_get (cdvdp s) j k).
    { intros v dv G. destruct (mx_set (cdvdp s) i k dv) as [m|x| |] eqn:Em; inversion G; subst; simpl; auto.
      intros j k' C. eapply mx_set_same; eauto. intros Q. inversion Q; subst. destruct C as [C|C]; [congruence|].
      rewrite P in C. simpl in C. rewrite Nat.eqb_refl in C. discriminate. }
    destruct (ctype e); try (exact (G _ _ H)). inversion H; subst; simpl; auto.
Qed.

Lemma fill_one_dims (s : cstate T) i s' r cs : fill_one N builtins s i = (s', r) -> mwf (cdvdp s) -> table s cs -> i < length cs ->
  mrows (cdvdp s') = mrows (cdvdp s) /\ mcols (cdvdp s') = mcols (cdvdp s) /\
  forall j k, (forall a c, nth_error cs j = Some (a, c) -> writtenb (ctab s) c k = false) -> mx_get (cdvdp s') j k = mx_get (cdvdp s) j k.
Proof.
  intros H M [F OK] L. destruct (nth_error cs i) as [[a c]|] eqn:Ec. 2:{ apply nth_error_None in Ec. lia. }
  pose proof (Forall_nth_error _ _ _ _ OK Ec) as Oc. simpl in Oc.
  assert (Hh : forall e, nth_error (cons_ s) i = Some e -> holds e (a, c)). { intros e E. destruct (Forall2_nth_l _ _ _ _ _ F E) as (b & Eb & Hb). congruence. }
  destruct (fill_one_dvdp N builtins s i s' r a c H M Hh Oc) as (A & B & _). split; auto. split; auto. intros j k W.
  apply (fill_one_keep s i s' r a c H M Hh Oc). destruct (Nat.eq_dec j i); auto. subst j. right. eapply W; eauto.
Qed.

Lemma fill_loop_keep cs : forall n i (s s' : cstate T) r, fill_loop N builtins s n i = (s', r) -> mwf (cdvdp s) -> table s cs -> i + n <= length cs ->
  mrows (cdvdp s') = mrows (cdvdp s) /\ mcols (cdvdp s') = mcols (cdvdp s) /\
  forall j k, (forall a c, nth_error cs j = Some (a, c) -> writtenb (ctab s) c k = false) -> mx_get (cdvdp s') j k = mx_get (cdvdp s) j k.
Proof.
  induction n as [|n IH]; intros i s s' r H M F L; simpl in H. inversion H; subst; auto.
  destruct (fill_one N builtins s i) as [s1 r1] eqn:E.
  destruct (fill_one_dims s i s1 r1 cs E M F) as (A1 & A2 & A3). lia.
  destruct (fill_one_frame N builtins s i s1 r1 E M) as (B1 & B2 & B3 & _).
  destruct r1; try (inversion H; subst; auto; fail).
  assert (F1 : table s1 cs). { destruct F as [F OK]. split; auto. eapply strip_holds; eauto. }
  destruct (IH (S i) s1 s' r H B3 F1) as (C1 & C2 & C3). lia. split; [congruence|]. split; [congruence|].
  intros j k W. rewrite C3 by (rewrite B1; auto). auto.
Qed.

(** cells as the next calculation sees them *)
Definition sized (s : cstate T) (j k : nat) : outcome T :=
  if ((j <? mrows (cdvdp s)) && (k <? mcols (cdvdp s)))%bool then mx_get (cdvdp s) j k else Ok (n_zero N).
Lemma fill_variables_keep (s s' : cstate T) r cs : fill_variables N builtins s = (s', r) -> mwf (cdvdp s) -> table s cs ->
  forall j a c k, nth_error cs j = Some (a, c) -> k < length (pval (ctab s)) -> writtenb (ctab s) c k = false -> sized s' j k = sized s j k.
Proof.
  intros H M F j a c k Ej Lk W. unfold fill_variables in H.
  destruct (mx_resize_spec (n_zero N) (cdvdp s) (length (cons_ s)) (length (pval (ctab s))) M) as (m & R1 & R2 & R3 & R4 & R5). rewrite R1 in H.
  pose proof (Forall2_length _ _ _ (proj1 F)) as Len.
  destruct (fill_loop_keep cs _ _ _ _ _ H R2) as (A1 & A2 & A3); auto. lia. simpl in *.
  assert (j < length cs) by (apply nth_error_Some; congruence).
  unfold sized at 1. rewrite A1, A2, R3, R4. destruct (Nat.ltb_spec j (length (cons_ s))); [|lia]. destruct (Nat.ltb_spec k (length (pval (ctab s)))); [|lia]. cbn [andb].
  rewrite A3. 2:{ intros a' c' E. congruence. } rewrite R5 by lia. reflexivity.
Qed.

(** tables that differ in the values only *)
Definition same_pars (t t' : ptab T) : Prop := pid t' = pid t /\ pfree t' = pfree t /\ length (pval t') = length (pval t).
Lemma written_same t t' c k : same_pars t t' -> writtenb t' c k = writtenb t c k.
Proof. intros (A & B & _). unfold writtenb, parfind. rewrite A, B. reflexivity. Qed.

(** the same table filled from two states that agree where nothing is written *)
Lemma filled_same (s1 s2 s1' s2' : cstate T) cs : wf (ctab s1) -> ctab s2 = ctab s1 -> Forall (fun ac => con_ok (snd ac)) cs -> map strip (cons_ s1') = map strip (cons_ s2') ->
  (forall a c, In (a, c) cs -> con_val N builtins (env_of (ctab s1)) c <> None) ->
  (forall j a c k, nth_error cs j = Some (a, c) -> k < length (pval (ctab s1)) -> writtenb (ctab s1) c k = false -> sized s1' j k = sized s2' j k) ->
  filled N builtins s1 s1' cs -> filled N builtins s2 s2' cs -> cons_ s1' = cons_ s2' /\ cdvdp s1' = cdvdp s2'.
Proof.
  intros W TE OKS SE V KE (A1 & A2 & A3 & A4 & A5 & A6 & A7 & A8) (B1 & B2 & B3 & B4 & B5 & B6 & B7 & B8). rewrite TE in *.
  assert (C : cons_ s1' = cons_ s2').
  { assert (LEN : length (cons_ s1') = length (cons_ s2')) by (rewrite <- (map_length strip), SE, map_length; auto).
    pose proof (Forall2_length _ _ _ (proj1 A2)) as L1.
    assert (ND : forall j, nth_error (cons_ s1') j = nth_error (cons_ s2') j).
    { intros j. pose proof (f_equal (fun l => nth_error l j) SE) as E. cbv beta in E. rewrite !nth_error_map in E.
      destruct (nth_error (cons_ s1') j) as [e1|] eqn:E1, (nth_error (cons_ s2') j) as [e2|] eqn:E2; simpl in E; try discriminate; auto.
      destruct (nth_error cs j) as [[a c]|] eqn:Ej. 2:{ apply nth_error_None in Ej. assert (j < length (cons_ s1')) by (apply nth_error_Some; congruence). lia. }
      specialize (A4 _ _ _ _ E1 Ej). specialize (B4 _ _ _ _ E2 Ej). destruct e1, e2. unfold strip in E. simpl in *. congruence. }
    clear - ND. revert ND. generalize (cons_ s2'). induction (cons_ s1') as [|x l IH]; intros [|y l'] ND; auto. specialize (ND 0); discriminate. specialize (ND 0); discriminate.
    f_equal. specialize (ND 0). simpl in ND. congruence. apply IH. intros j. apply (ND (S j)). }
  split; auto. apply mx_ext; auto; try congruence. intros j k Hj Hk. rewrite A6 in Hj. rewrite A7 in Hk.
  destruct (nth_error cs j) as [[a c]|] eqn:Ej. 2:{ apply nth_error_None in Ej. lia. }
  destruct (writtenb (ctab s1) c k) eqn:Wr.
  2:{ specialize (KE _ _ _ _ Ej Hk Wr). unfold sized in KE. rewrite A6, A7, B6, B7 in KE. destruct (Nat.ltb_spec j (length cs)); [|lia]. destruct (Nat.ltb_spec k (length (pval (ctab s1)))); [|lia]. exact KE. }
  destruct (A8 _ _ _ Ej) as [SA _]. destruct (B8 _ _ _ Ej) as [SB _]. pose proof (nth_error_In _ _ Ej) as I. specialize (V _ _ I).
  destruct c as [line e|kk n]; simpl in SA, SB, Wr, V.
  - apply andb_true_iff in Wr as [W1 W2]. destruct (nth_error (pfree (ctab s1)) k) as [b|] eqn:Fk; [|discriminate]. subst b.
    destruct SA as (v & d & used & P & SA). destruct SB as (v' & d' & used' & P' & SB). assert (d' = d /\ used' = used) as [-> ->] by (split; congruence).
    rewrite Forall_forall in OKS. destruct (OKS _ I) as (O1 & O2 & O3). destruct (ev N builtins (env_of (ctab s1)) e) as [v0|] eqn:Ev; [|congruence].
    destruct (parse_full N builtins (ctab s1) line e v0 W O2 O3 Ev) as (d0 & u0 & Q1 & _ & _ & Q4 & _). assert (u0 = used) as -> by congruence.
    apply existsb_exists in W1 as (n & In1 & En). apply eqo_true in En. assert (U : In k used) by (apply Q4; eauto). apply In_nth_error in U as (q & U).
    specialize (SA q k U Fk). specialize (SB q k U Fk). rewrite <- SB in SA. destruct (mx_get (cdvdp s1') j k), (mx_get (cdvdp s2') j k); simpl in SA; congruence.
  - apply eqo_true in Wr. unfold env_of, getpar in V. destruct (nth_error (pval (ctab s1)) k) as [p|] eqn:Ep. 2:{ apply nth_error_None in Ep. lia. }
    assert (G : getpar (ctab s1) n = Ok p) by (unfold getpar; rewrite Wr, Ep; auto). rewrite (SA k p Wr G), (SB k p Wr G). reflexivity.
Qed.
End Fill.

Local Open Scope R_scope.
Lemma fmod_idem x n : 0 < n -> fmod (fmod x n) n = fmod x n.
Proof.
  intros P. apply fmod_small; auto. destruct (Rle_lt_dec 0 x) as [H|H]. pose proof (fmod_pos x n P H). lra. pose proof (fmod_neg x n P ltac:(lra)). lra.
Qed.

Section Wrap.
Variable addr : rvar -> nat.
Variable ph : list cphase.
Variable nset : nat.
Hypothesis AP : apart addr (atoms_in ph) nset.
Hypothesis BO : blocks_ok ph.
Notation wcell := (nat * nat * nat * Z)%type.
Definition waddr (x : wcell) : nat := let '(ip, ia, i, icc) := x in addr (AV ip ia (FPos i)).
Definition wicc (x : wcell) : R := let '(_, _, _, icc) := x in IZR icc.

Lemma wrap_in x : In x (wrap_list ph) -> let '(ip, ia, i, icc) := x in
  exists p, nth_error ph ip = Some p /\ (ia < length (cp_atoms p))%nat /\ (i < 3)%nat /\ icc = cp_icc p i.
Proof.
  destruct x as [[[ip ia] i] icc]. intros H. unfold wrap_list in H. apply in_flat_map in H as ([ip' p] & I & H).
  apply in_flat_map in H as (ia' & I2 & H). apply in_map_iff in H as (i' & E & I3). inversion E; subst. apply in_seq in I2.
  exists p. split. { apply In_nth_error in I as (k & K). assert (X : (k < length (combine (seq 0 (length ph)) ph))%nat) by (apply nth_error_Some; congruence).
    rewrite combine_length, seq_length, Nat.min_id in X.
    assert (Q : nth_error (combine (seq 0 (length ph)) ph) k = Some (k, nth k ph p)).
    { rewrite (nth_error_nth' _ (0%nat, p)) by (rewrite combine_length, seq_length; lia). rewrite combine_nth by (rewrite seq_length; auto). rewrite seq_nth by auto. reflexivity. }
    rewrite K in Q. assert (ip = k /\ p = nth k ph p) as [-> EP] by (split; congruence). rewrite EP. apply nth_error_nth'. auto. }
  split. lia. split; auto. simpl in I3. lia.
Qed.
Lemma wrap_pos x : In x (wrap_list ph) -> 0 < wicc x.
Proof. intros I. pose proof (wrap_in x I) as W. destruct x as [[[ip ia] i] icc]. destruct W as (p & E & _ & L & ->). apply (IZR_lt 0). apply BO; auto. eapply nth_error_In; eauto. Qed.
Lemma wrap_inj x y : In x (wrap_list ph) -> In y (wrap_list ph) -> waddr x = waddr y -> wicc x = wicc y.
Proof.
  intros I J E. pose proof (wrap_in x I) as X. pose proof (wrap_in y J) as Y. destruct x as [[[ip ia] i] icc]. destruct y as [[[ip' ia'] i'] icc']. cbn [waddr wicc] in *.
  destruct X as (p & P & L & B & ->). destruct Y as (p' & P' & L' & B' & ->).
  assert (V : forall ip ia i p, nth_error ph ip = Some p -> (ia < length (cp_atoms p))%nat -> (i < 3)%nat -> exists_var (atoms_in ph) nset (AV ip ia (FPos i))).
  { intros a b c q Q1 Q2 Q3. unfold exists_var, atoms_in. rewrite map_length. split. apply nth_error_Some; congruence. split; [|exact Q3].
    rewrite (nth_error_nth _ _ _ (map_nth_error (fun p => length (cp_atoms p)) _ _ Q1)). auto. }
  assert (Q : AV ip ia (FPos i) = AV ip' ia' (FPos i')) by (apply AP; eauto). inversion Q; subst. congruence.
Qed.
(** a piece of the loop *)
Definition wloop (l : list wcell) (mem : nat -> R) : nat -> R := fold_left (fun mem x => mem_set mem (waddr x) (fmod (mem (waddr x)) (wicc x))) l mem.
Lemma wrap_loop mem : wrap_mem addr ph mem = wloop (wrap_list ph) mem.
Proof.
  unfold wrap_mem, wloop. revert mem. induction (wrap_list ph) as [|[[[ip ia] i] icc] l IH]; intros mem; cbn [fold_left]. reflexivity. apply IH.
Qed.
Lemma wloop_at a : forall l mem, incl l (wrap_list ph) ->
  wloop l mem a = mem a \/ exists x, In x (wrap_list ph) /\ waddr x = a /\ wloop l mem a = fmod (mem a) (wicc x).
Proof.
  induction l as [|x l IH]; intros mem I. left; reflexivity. unfold wloop. cbn [fold_left]. fold (wloop l (mem_set mem (waddr x) (fmod (mem (waddr x)) (wicc x)))).
  assert (Ix : In x (wrap_list ph)) by (apply I; left; auto).
  destruct (IH (mem_set mem (waddr x) (fmod (mem (waddr x)) (wicc x)))) as [E|(y & Iy & Ay & E)]. intros z Z; apply I; right; auto.
  - rewrite E. unfold mem_set. destruct (Nat.eqb_spec a (waddr x)); auto. subst. right. exists x. auto.
  - rewrite E. unfold mem_set. destruct (Nat.eqb_spec a (waddr x)) as [->|]. right. exists x. split; auto. split; auto. rewrite (wrap_inj y x) by auto. apply fmod_idem, wrap_pos; auto.
    right. exists y. auto.
Qed.
(** memories that differ in the coordinates by whole blocks *)
Definition alike (l : list wcell) (m1 m2 : nat -> R) (a : nat) : Prop :=
  m1 a = m2 a \/ exists x, In x l /\ waddr x = a /\ fmod (m1 a) (wicc x) = fmod (m2 a) (wicc x).
Lemma wloop_same : forall l m1 m2, incl l (wrap_list ph) -> (forall a, alike l m1 m2 a) -> forall a, wloop l m1 a = wloop l m2 a.
Proof.
  induction l as [|x l IH]; intros m1 m2 I H a. destruct (H a) as [E|(x & [] & _)]. exact E. unfold wloop. cbn [fold_left]. apply IH. intros z Z; apply I; right; auto.
  intros b. unfold alike, mem_set. destruct (Nat.eqb_spec b (waddr x)) as [->|NE].
  - left. destruct (H (waddr x)) as [E|(y & Iy & Ay & E)]. rewrite E; auto. rewrite (wrap_inj x y); auto. apply I; left; auto.
  - destruct (H b) as [E|(y & [->|Iy] & Ay & E)]; auto. congruence. right. exists y. auto.
Qed.
Lemma wrap_same m1 m2 : (forall a, alike (wrap_list ph) m1 m2 a) -> wrap_mem addr ph m1 = wrap_mem addr ph m2.
Proof. intros H. apply functional_extensionality. intros a. rewrite !wrap_loop. apply wloop_same; auto. apply incl_refl. Qed.
Lemma wrap_alike m1 m2 a : alike (wrap_list ph) m1 m2 a -> alike (wrap_list ph) (wrap_mem addr ph m1) m2 a.
Proof.
  intros H. rewrite wrap_loop. destruct (wloop_at a (wrap_list ph) m1 (incl_refl _)) as [E|(x & Ix & Ax & E)]; unfold alike in *; rewrite E; auto.
  right. exists x. split; auto. split; auto. rewrite fmod_idem by (apply wrap_pos; auto). destruct H as [->|(y & Iy & Ay & H)]; auto.
  assert (Q : wicc x = wicc y) by (apply wrap_inj; auto; congruence). rewrite Q. exact H.
Qed.
End Wrap.

Section History.
Variable addr : rvar -> nat.
Variable ph : list cphase.
Variable nset : nat.
Hypothesis AP : apart addr (atoms_in ph) nset.
Hypothesis BO : blocks_ok ph.
Context (N : numops R) (builtins : list (builtin R)) (cs : list (nat * con)).
Hypothesis OK : Forall (fun ac => con_ok (snd ac)) cs.

Definition agree (s0 s : cstate R) : Prop :=
  same_pars (ctab s0) (ctab s) /\ map strip (cons_ s) = map strip (cons_ s0) /\ mwf (cdvdp s) /\
  (forall j a c k, nth_error cs j = Some (a, c) -> (k < length (pval (ctab s0)))%nat -> writtenb (ctab s0) c k = false -> sized N s j k = sized N s0 j k) /\
  (forall a, ~ In a (map fst cs) -> alike addr (wrap_list ph) (cmem s) (cmem s0) a).
Lemma agree_refl s : mwf (cdvdp s) -> agree s s.
Proof. intros M. repeat split; auto. intros a _. left. auto. Qed.
Lemma agree_table s0 s : agree s0 s -> table s0 cs -> table s cs.
Proof. intros (_ & E & _) [F _]. split; auto. eapply strip_holds; eauto. Qed.
Lemma agree_pars s0 s p : agree s0 s -> agree s0 (with_pars s p).
Proof.
  intros ((A1 & A2 & A3) & B & C & D & E). split. { unfold with_pars. repeat split; auto. simpl. rewrite map_length, seq_length. auto. }
  split; auto. 
Qed.
Lemma cons_addr (s : cstate R) e : table s cs -> In e (cons_ s) -> In (cvar e) (map fst cs).
Proof. intros [F _] I. apply In_nth_error in I as (i & I). destruct (Forall2_nth_l _ _ _ _ _ F I) as (b & Eb & [Hb _]). rewrite Hb. apply in_map. eapply nth_error_In; eauto. Qed.
Lemma agree_fill s0 s s' r : agree s0 s -> table s0 cs -> fill_variables N builtins s = (s', r) -> agree s0 s'.
Proof.
  intros A T0 F. pose proof (agree_table _ _ A T0) as T. destruct A as (A & B & C & D & E). destruct (fill_variables_frame N builtins s s' r F C) as (F1 & F2 & F3 & F4).
  split. rewrite F1; auto. split. congruence. split; auto. split.
  - intros j a c k Ej Hk W. rewrite <- (D j a c k) by auto. apply (fill_variables_keep N builtins s s' r cs F C T j a c k); auto. destruct A as (_ & _ & L). rewrite L; auto. rewrite <- W. apply written_same; auto.
  - intros a NI. unfold alike. rewrite F4. apply E; auto. intros e I. pose proof (cons_addr s e T I). congruence.
Qed.
Lemma agree_step s0 s fuel ly sets : agree s0 s -> table s0 cs -> agree s0 (fst (theory_diff addr N builtins fuel ly ph sets s)).
Proof.
  intros A T. unfold theory_diff. destruct (fill_variables N builtins s) as [s' r] eqn:F. pose proof (agree_fill _ _ _ _ A T F) as A'. destruct r; cbn [fst]; auto.
  destruct A' as (A1 & B & C & D & E). split; auto. split; auto. split; auto. split; auto. intros a' NI. cbn [cmem]. apply (wrap_alike addr ph nset AP BO). auto.
Qed.
Lemma agree_visit s0 fuel ly sets : table s0 cs -> forall ps s, agree s0 s -> agree s0 (visit addr N builtins fuel ly ph sets ps s).
Proof. intros T. induction ps as [|p ps IH]; intros s A. exact A. apply IH. apply agree_step; auto. apply agree_pars; auto. Qed.

Lemma last_con_in a : forall l c, last_con a l = Some c -> In (a, c) l.
Proof.
  induction l as [|[b c'] l IH]; intros c H; simpl in H. discriminate. destruct (last_con a l) eqn:E. inversion H; subst. right. apply IH. auto.
  destruct (Nat.eqb_spec b a); inversion H; subst. left; auto.
Qed.
Lemma last_con_none a : forall l, last_con a l = None -> ~ In a (map fst l).
Proof.
  induction l as [|[b c'] l IH]; intros H; simpl in H. intros []. destruct (last_con a l) eqn:E; [discriminate|]. destruct (Nat.eqb_spec b a); [discriminate|]. intros [Q|Q]. auto. apply IH; auto.
Qed.
(** two states that agree calculate the same *)
Lemma agree_same s1 s2 fuel ly sets : wf (ctab s1) -> mwf (cdvdp s1) -> table s1 cs -> agree s1 s2 -> ctab s2 = ctab s1 -> solvable N builtins s1 cs ->
  theory_diff addr N builtins fuel ly ph sets s2 = theory_diff addr N builtins fuel ly ph sets s1.
Proof.
  intros W M T A TE V. pose proof (agree_table _ _ A T) as T2. pose proof A as (_ & SE & M2 & D & E).
  destruct (fill_variables_ok N builtins s1 cs W M T V) as (s1' & F1 & G1).
  destruct (fill_variables_ok N builtins s2 cs) as (s2' & F2 & G2); auto. rewrite TE; auto. rewrite TE. exact V.
  destruct (fill_variables_frame N builtins s1 s1' _ F1 M) as (P1 & P2 & _). destruct (fill_variables_frame N builtins s2 s2' _ F2 M2) as (Q1 & Q2 & _).
  destruct (filled_same N builtins s2 s1 s2' s1' cs) as [CE DE]; auto. rewrite TE; auto. congruence. rewrite TE; exact V.
  { intros j a c k Ej Hk Wr. rewrite TE in *. rewrite (fill_variables_keep N builtins s2 s2' _ cs F2 M2 T2 j a c k), (fill_variables_keep N builtins s1 s1' _ cs F1 M T j a c k); auto. eapply D; eauto. rewrite TE; auto. rewrite TE; auto. }
  assert (ME : wrap_mem addr ph (cmem s2') = wrap_mem addr ph (cmem s1')).
  { apply (wrap_same addr ph nset AP). intros a. destruct G1 as (_ & _ & G1 & _). destruct G2 as (_ & _ & G2 & _). unfold alike. rewrite G1, G2, TE.
    destruct (last_con a cs) as [c|] eqn:L. 2:{ apply E. apply last_con_none. auto. }
    apply last_con_in in L. specialize (V _ _ L). destruct (con_val N builtins (env_of (ctab s1)) c); [left; auto|congruence]. }
  unfold theory_diff. rewrite F1, F2. cbv zeta. rewrite ME. cbn [cons_ cdvdp ctab]. rewrite CE, DE, Q1, P1, TE. reflexivity.
Qed.
Theorem history_free s0 fuel ly sets ps p : wf (ctab s0) -> mwf (cdvdp s0) -> table s0 cs -> solvable N builtins (with_pars s0 p) cs ->
  theory_diff addr N builtins fuel ly ph sets (with_pars (visit addr N builtins fuel ly ph sets ps s0) p) = theory_diff addr N builtins fuel ly ph sets (with_pars s0 p).
Proof.
  intros W M T V. set (s := visit addr N builtins fuel ly ph sets ps s0). assert (A : agree s0 s) by (apply agree_visit; auto; apply agree_refl; auto).
  pose proof A as ((I1 & I2 & I3) & A2 & A3 & A4 & A5).
  apply agree_same; auto.
  - unfold wf, with_pars in *. simpl. rewrite map_length, seq_length. exact W.
  - split. { repeat split; simpl; auto. rewrite I3; auto. } split; auto. split; auto. split; auto.
    intros j a c k Ej Hk Wr. simpl in Hk. rewrite map_length, seq_length in Hk. apply (A4 j a c k Ej Hk). rewrite <- Wr. symmetry. apply written_same. repeat split; auto. simpl. rewrite map_length, seq_length. auto.
  - unfold with_pars. simpl. rewrite I1, I2, I3. reflexivity.
Qed.
End History.
