(** Proofs about the scattering factors of the atoms. *)
From Coq Require Import Ascii List Arith Reals Bool Lia Lra.
From Verif Require Import Base Util RSum ParserModel MetricModel PdfModel DataModel ElementTable ScatModel ScatSpec ScatProof PdfSpec FactModel FactSpec.
Import ListNotations.
Local Open Scope R_scope.

Lemma F2_impl {A B} (P Q : A -> B -> Prop) l l' : (forall a b, P a b -> Q a b) -> Forall2 P l l' -> Forall2 Q l l'.
Proof. intros I F. induction F; constructor; auto. Qed.
Lemma F2_length {A B} (P : A -> B -> Prop) l l' : Forall2 P l l' -> length l = length l'.
Proof. intros F. induction F; cbn; auto. Qed.
Lemma F2_nth {A B} (P : A -> B -> Prop) l l' : Forall2 P l l' -> forall i a b, nth_error l i = Some a -> nth_error l' i = Some b -> P a b.
Proof. intros F. induction F; intros [|i] a b; cbn; intros X Y; try discriminate; eauto. injection X as <-. injection Y as <-. auto. Qed.
Lemma F2_right {A B} (P : A -> B -> Prop) l l' : Forall2 P l l' -> forall i b, nth_error l' i = Some b -> exists a, P a b.
Proof. intros F. induction F; intros [|i] b; cbn; intros Y; try discriminate; eauto. injection Y as <-. eauto. Qed.
Lemma known_dec s : known s \/ ~ known s.
Proof.
  destruct (pt_lookup elements s) as [e|] eqn:E. left. exists e. apply lookup_ok; auto.
  right. intros [e M]. rewrite lookup_none in E. apply (E e); auto.
Qed.
Lemma all_known_dec l : Forall known l \/ ~ Forall known l.
Proof. induction l as [|s l IH]. left; auto. destruct (known_dec s), IH; auto; right; intros H'; inversion H'; auto. Qed.
Lemma history_total cs : exists s ph, history cs s ph.
Proof.
  induction cs as [|c cs (s & ph & H)]. do 2 eexists; constructor.
  destruct c as [syms| | | | |]; try (do 2 eexists; econstructor; eassumption).
  destruct (all_known_dec syms); do 2 eexists; [apply H_read|apply H_unread]; eassumption.
Qed.

(** entries are never removed *)
Lemma symbol_keeps t k v t' k' : local_symbol elements t k = Ok (v, t') -> lt_find t k' <> None -> lt_find t' k' <> None.
Proof.
  unfold local_symbol. destruct (lt_find t k) eqn:E. intros H; inversion H; subst; auto.
  destruct (symbol_index elements k); [|discriminate]. intros H; inversion H; subst. rewrite find_app. destruct (lt_find t k'); auto.
Qed.
Lemma lookup_keeps t q x t' k' : local_lookup elements t q = Ok (x, t') -> lt_find t k' <> None -> lt_find t' k' <> None.
Proof.
  unfold local_lookup. destruct (pt_lookup elements q) as [e|]; [|discriminate]. destruct (local_symbol elements t (esym e)) as [[v t1]| | |] eqn:E; cbn; try discriminate.
  intros H; inversion H; subst. eapply symbol_keeps; eauto.
Qed.
Lemma put_keeps t k v k' : lt_find t k' <> None -> lt_find (lt_set t k v) k' <> None.
Proof. intros H. rewrite find_set. destruct (text_eqb k k'); [intros X; inversion X|exact H]. Qed.
Lemma set_keeps t tp q v k : lt_find t k <> None -> lt_find (fst (set_scat elements t tp q v)) k <> None.
Proof.
  intros H. unfold set_scat. destruct (local_lookup elements t q) as [[[k1 v1] t1]| | |] eqn:E; auto.
  pose proof (lookup_keeps _ _ _ _ _ E H) as H1.
  destruct (Ascii.eqb tp "n" || Ascii.eqb tp "N").
  - destruct (local_symbol elements t1 k1) as [[v2 t2]| | |] eqn:E2; cbn; auto. apply put_keeps. eapply symbol_keeps; eauto.
  - destruct (Ascii.eqb tp "x" || Ascii.eqb tp "X"); auto.
    destruct (local_symbol elements t1 k1) as [[v2 t2]| | |] eqn:E2; cbn; auto. apply put_keeps. eapply symbol_keeps; eauto.
Qed.
Lemma reset_keeps t q k : lt_find t k <> None -> lt_find (fst (reset_scat elements t q)) k <> None.
Proof.
  intros H. unfold reset_scat. destruct (local_lookup elements t q) as [[[k1 v1] t1]| | |] eqn:E; auto.
  pose proof (lookup_keeps _ _ _ _ _ E H) as H1. destruct (symbol_index elements k1); auto. destruct (lt_find t1 k1); cbn; auto. apply put_keeps; auto.
Qed.
Lemma get_keeps t q k : lt_find t k <> None -> lt_find (match local_lookup elements t q with Ok (_, _, t) => t | _ => t end) k <> None.
Proof. intros H. destruct (local_lookup elements t q) as [[[k1 v1] t1]| | |] eqn:E; auto. eapply lookup_keeps; eauto. Qed.

(** a pointer to the entry of the element meant *)
Definition points (n : nat) (tab : ltable) (a : aptr) (s : text) : Prop :=
  exists e, means s e /\ a = InPhase n (esym e) /\ lt_find tab (esym e) <> None.
Lemma points_keeps n t t' a s : (forall k, lt_find t k <> None -> lt_find t' k <> None) -> points n t a s -> points n t' a s.
Proof. intros K (e & M & A & F). exists e. auto. Qed.

Lemma read_ok n syms : forall shared ph done, Forall known syms -> Forall2 (points n (kp_tab ph)) (kp_types ph) done ->
  exists shared' ph', read_types elements n shared ph syms = (shared', Ok ph') /\ Forall2 (points n (kp_tab ph')) (kp_types ph') (done ++ syms) /\
    forall e, In e elements -> eff (kp_tab ph') e = eff (kp_tab ph) e.
Proof.
  induction syms as [|s syms IH]; intros shared ph done K P; cbn [read_types].
  - exists shared, ph. rewrite app_nil_r. auto.
  - inversion K as [|? ? [e M] K']; subst. unfold read_type. destruct (look_ok shared s e M) as (sh & Q & _ & _). rewrite Q. cbn [omap obind fst snd].
    unfold reassign. cbn [symbol_at]. pose proof M as [I _]. destruct (local_ok (kp_tab ph) e I) as (t' & Q' & F' & E'). rewrite Q'. cbn [omap obind fst snd].
    destruct (IH sh (mkKp t' (kp_types ph ++ [InPhase n (esym e)])) (done ++ [s])) as (sh' & ph' & R & P' & X); auto.
    + cbn [kp_tab kp_types]. apply Forall2_app.
      * eapply F2_impl; [|exact P]. intros a b. apply points_keeps. intros k. eapply symbol_keeps; eauto.
      * constructor; auto. exists e. split; auto. split; auto. congruence.
    + exists sh', ph'. split; auto. split. rewrite <- app_assoc in P'. exact P'. intros e' I'. rewrite X by auto. cbn [kp_tab]. auto.
Qed.
Lemma read_bad n syms : forall shared ph, ~ Forall known syms -> exists shared' e, read_types elements n shared ph syms = (shared', Err e).
Proof.
  induction syms as [|s syms IH]; intros shared ph K; cbn [read_types]. exfalso; apply K; constructor.
  unfold read_type. destruct (known_dec s) as [[e M]|N].
  - destruct (look_ok shared s e M) as (sh & Q & _ & _). rewrite Q. cbn [omap obind fst snd].
    unfold reassign. cbn [symbol_at]. pose proof M as [I _]. destruct (local_ok (kp_tab ph) e I) as (t' & Q' & _). rewrite Q'. cbn [omap obind fst snd].
    apply IH. intros F. apply K. constructor; auto. exists e; auto.
  - rewrite look_bad. cbn [omap obind]. eauto. intros e M. apply N. exists e; auto.
Qed.

(** ** the invariant *)
Definition kinv (w : kworld) (s : list scat_op) (ph : list (list text)) : Prop :=
  scat_inv (map kp_tab (kw_ph w)) s /\ length ph = length (kw_ph w) /\
  forall p k syms, nth_error (kw_ph w) p = Some k -> nth_error ph p = Some syms -> Forall2 (points p (kp_tab k)) (kp_types k) syms.

Lemma on_phase_inv w p f s ph o : kinv w s ph ->
  (forall t, nth_error (map kp_tab (kw_ph w)) p = Some t -> scat_inv (upd_nth (map kp_tab (kw_ph w)) p (f t)) (o :: s)) ->
  (nth_error (kw_ph w) p = None -> scat_inv (map kp_tab (kw_ph w)) (o :: s)) ->
  (forall t k, lt_find t k <> None -> lt_find (f t) k <> None) ->
  kinv (on_phase w p f) (o :: s) ph.
Proof.
  intros (SI & L & P) A B K. unfold on_phase. destruct (nth_error (kw_ph w) p) as [k|] eqn:E.
  - assert (MU : forall l n (x : kphase), map kp_tab (upd_nth l n x) = upd_nth (map kp_tab l) n (kp_tab x)).
    { induction l; destruct n; cbn; intros; auto. rewrite IHl. auto. }
    split; [|split]; cbn [kw_ph].
    + rewrite MU. cbn [kp_tab]. apply A. apply map_nth_error; auto.
    + rewrite upd_len; auto.
    + intros p' k' syms N1 N2. rewrite upd_nth_error in N1. destruct (Nat.eqb_spec p p') as [->|Ne].
      * rewrite E in N1. inversion N1; subst. cbn [kp_tab kp_types]. eapply F2_impl; [|eapply P; eauto]. intros a b. apply points_keeps. auto.
      * eapply P; eauto.
  - split; auto.
Qed.

Lemma kstep_inv w s ph c s' ph' h : history h s ph -> history (c :: h) s' ph' -> kinv w s ph -> 
  (forall s1 ph1, history h s1 ph1 -> s1 = s /\ ph1 = ph) -> kinv (kstep elements w c) s' ph'.
Proof.
  intros H0 H (SI & L & P) U. assert (KI : kinv w s ph) by (split; auto). inversion H; subst;
    match goal with HH : history h ?a ?b |- _ => destruct (U a b HH); subst end; cbn [kstep].
  - (* a structure *)
    destruct (read_ok (length (kw_ph w)) syms (kw_shared w) (mkKp [] []) [] ltac:(auto)) as (sh & k & -> & PT & EF). constructor. cbn [app] in PT.
    split; [|split]; cbn [kw_ph].
    + rewrite map_app. cbn [map]. pose proof (step_inv _ _ NewPhase SI) as [L1 F1]. cbn [scat_step] in L1, F1. split.
      rewrite <- L1, !app_length. reflexivity.
      intros p t e r N I. destruct (Nat.lt_ge_cases p (length (map kp_tab (kw_ph w)))) as [Lt|Ge].
      * apply (F1 p t e r); auto. rewrite nth_error_app1 in N |- * by auto. auto.
      * rewrite nth_error_app2 in N by auto. destruct (p - length (map kp_tab (kw_ph w)))%nat as [|j] eqn:Ej; [|destruct j; discriminate]. cbn in N. inversion N; subst t.
        rewrite EF by auto. apply (F1 p [] e r); auto. rewrite nth_error_app2 by auto. rewrite Ej. reflexivity.
    + rewrite !app_length. simpl. lia.
    + intros p k' sy N1 N2. destruct (Nat.lt_ge_cases p (length (kw_ph w))) as [Lt|Ge].
      * rewrite nth_error_app1 in N1 by auto. rewrite nth_error_app1 in N2 by lia. eapply P; eauto.
      * rewrite nth_error_app2 in N1 by auto. rewrite nth_error_app2 in N2 by lia. rewrite L in N2.
        destruct (p - length (kw_ph w))%nat as [|j] eqn:Ej; [|destruct j; discriminate]. cbn in N1, N2. inversion N1; inversion N2; subst. replace p with (length (kw_ph w)) by lia. auto.
  - destruct (read_bad (length (kw_ph w)) syms (kw_shared w) (mkKp [] []) ltac:(auto)) as (sh & e & ->). split; auto.
  - split; [|split]; cbn [kw_ph map]; auto. exact (step_inv _ _ ClearAll SI). intros [|p]; discriminate.
  - apply (on_phase_inv w p _ s ph (SetScat p tp q v) KI).
    + intros t N. pose proof (step_inv _ _ (SetScat p tp q v) SI) as X. cbn [scat_step] in X. rewrite N in X. exact X.
    + intros N. pose proof (step_inv _ _ (SetScat p tp q v) SI) as X. cbn [scat_step] in X. rewrite nth_error_map, N in X. exact X.
    + intros t k. apply set_keeps.
  - apply (on_phase_inv w p _ s ph (ResetScat p q) KI).
    + intros t N. pose proof (step_inv _ _ (ResetScat p q) SI) as X. cbn [scat_step] in X. rewrite N in X. exact X.
    + intros N. pose proof (step_inv _ _ (ResetScat p q) SI) as X. cbn [scat_step] in X. rewrite nth_error_map, N in X. exact X.
    + intros t k. apply reset_keeps.
  - apply (on_phase_inv w p _ s ph (GetScat p tp q) KI).
    + intros t N. pose proof (step_inv _ _ (GetScat p tp q) SI) as X. cbn [scat_step] in X. rewrite N in X.
      destruct (local_lookup elements t q) as [[[k1 v1] t1]| | |]; auto;
        assert (UI : forall l n (x : ltable), nth_error l n = Some x -> upd_nth l n x = l) by (clear; induction l; destruct n; cbn; intros; try discriminate; [inversion H; auto|rewrite IHl; auto]); rewrite UI; auto.
    + intros N. pose proof (step_inv _ _ (GetScat p tp q) SI) as X. cbn [scat_step] in X. rewrite nth_error_map, N in X. exact X.
    + intros t k. apply get_keeps.
  - split; auto.
Qed.

Lemma history_unique cs : forall s ph s' ph', history cs s ph -> history cs s' ph' -> s' = s /\ ph' = ph.
Proof.
  induction cs as [|c cs IH]; intros s ph s' ph' H1 H2; inversion H1; subst; inversion H2; subst; auto; try contradiction;
    match goal with A : history cs ?a ?b, B : history cs ?x ?y |- _ => destruct (IH _ _ _ _ A B); subst; auto end.
Qed.
Lemma krun_snoc cs c : krun elements (cs ++ [c]) = kstep elements (krun elements cs) c.
Proof. unfold krun. rewrite fold_left_app. reflexivity. Qed.
Lemma krun_inv cs s ph : history (rev cs) s ph -> kinv (krun elements cs) s ph.
Proof.
  revert s ph. induction cs as [|c cs IH] using rev_ind; intros s ph H.
  - inversion H; subst. split; [|split]; cbn; auto. split; auto. intros [|p]; discriminate. intros [|p]; discriminate.
  - rewrite rev_app_distr in H. cbn [rev app] in H. rewrite krun_snoc. destruct (history_total (rev cs)) as (s0 & ph0 & H0).
    eapply kstep_inv; eauto. intros s1 ph1 H1. eapply history_unique; eauto.
Qed.

(** ** what the calculation reads *)
Lemma factor_ok cs s ph p i q e tp r : history (rev cs) s ph -> symbol_of ph p i q -> means q e -> radiation_of tp r ->
  exists v, atom_factor (krun elements cs) p i tp = Ok v /\ factor_is p e r s v.
Proof.
  intros H (syms & N1 & N2) M Rr. destruct (krun_inv cs s ph H) as ((_ & SF) & L & P). set (w := krun elements cs) in *.
  destruct (nth_error (kw_ph w) p) as [k|] eqn:EK; [|apply nth_error_None in EK; assert (nth_error ph p <> None) as X by congruence; apply nth_error_Some in X; lia].
  pose proof (P p k syms EK N1) as F. destruct (nth_error (kp_types k) i) as [a|] eqn:EA.
  2: { apply nth_error_None in EA. assert (nth_error syms i <> None) as X by congruence. apply nth_error_Some in X. pose proof (F2_length _ _ _ F). lia. }
  assert (PT : points p (kp_tab k) a q).
  { eapply (F2_nth _ _ _ F); eauto. }
  destruct PT as (e' & M' & -> & LF). assert (e' = e) by (eapply means_unique; eauto). subst e'. clear M'.
  destruct (lt_find (kp_tab k) (esym e)) as [v|] eqn:EV; [|congruence].
  exists (pick r v). split.
  - unfold atom_factor. rewrite EK, EA. cbn [deref]. rewrite Nat.eqb_refl, EV. cbn [obind]. rewrite sf_ok. apply rad_ok in Rr. rewrite Rr. reflexivity.
  - replace v with (eff (kp_tab k) e) by (unfold eff; rewrite EV; auto). apply (SF p (kp_tab k) e r). apply map_nth_error; auto. apply M.
Qed.
Lemma factor_get cs s ph p i q tp r : history (rev cs) s ph -> symbol_of ph p i q -> radiation_of tp r ->
  exists k, nth_error (kw_ph (krun elements cs)) p = Some k /\ atom_factor (krun elements cs) p i tp = get_scat elements (kp_tab k) tp q.
Proof.
  intros H SY Rr. destruct (krun_inv cs s ph H) as (SI & L & P). pose proof SY as (syms & N1 & N2).
  destruct (nth_error (kw_ph (krun elements cs)) p) as [k|] eqn:EK; [|apply nth_error_None in EK; assert (nth_error ph p <> None) as X by congruence; apply nth_error_Some in X; lia].
  exists k. split; auto.
  assert (K : known q). { pose proof (P p k syms EK N1) as F. destruct (F2_right _ _ _ F _ _ N2) as (a & e & M & _). exists e; auto. }
  destruct K as [e M]. destruct (factor_ok cs s ph p i q e tp r H SY M Rr) as (v & -> & FV).
  destruct (look_ok (kp_tab k) q e M) as (t' & Q & _). unfold get_scat. rewrite Q, sf_ok. apply rad_ok in Rr. rewrite Rr. f_equal.
  eapply factor_unique. exact FV. destruct SI as [_ SF]. apply (SF p (kp_tab k) e r). apply map_nth_error; auto. apply M.
Qed.

(** the same pointer exactly for the same element *)
Lemma types_ok cs s ph p i j a b q1 q2 e1 e2 : history (rev cs) s ph -> symbol_of ph p i q1 -> symbol_of ph p j q2 -> means q1 e1 -> means q2 e2 ->
  (exists k, nth_error (kw_ph (krun elements cs)) p = Some k /\ nth_error (kp_types k) i = Some a /\ nth_error (kp_types k) j = Some b) ->
  (a = b <-> e1 = e2).
Proof.
  intros H (s1 & A1 & A2) (s2 & B1 & B2) M1 M2 (k & EK & EA & EB). rewrite B1 in A1. inversion A1; subst s2. clear A1.
  destruct (krun_inv cs s ph H) as (_ & L & P). pose proof (P p k s1 EK B1) as F.
  assert (PT : forall i x q, nth_error s1 i = Some q -> nth_error (kp_types k) i = Some x -> points p (kp_tab k) x q).
  { intros i' x q' X Y. eapply (F2_nth _ _ _ F); eauto. }
  destruct (PT i a q1 A2 EA) as (x1 & X1 & -> & _). destruct (PT j b q2 B2 EB) as (x2 & X2 & -> & _).
  assert (x1 = e1) by (eapply means_unique; eauto). assert (x2 = e2) by (eapply means_unique; eauto). subst.
  split; [|intros ->; auto]. intros E. injection E as E. destruct M1, M2. eapply (nodup_inj esym); eauto using sym_nodup.
Qed.

Lemma unrelated_ok cs s ph p i q tp r c : history (rev cs) s ph -> symbol_of ph p i q -> radiation_of tp r -> unrelated ph p r c ->
  atom_factor (krun elements (cs ++ [c])) p i tp = atom_factor (krun elements cs) p i tp.
Proof.
  intros H SY Rr U. assert (K : known q).
  { destruct SY as (syms & N1 & N2). destruct (krun_inv cs s ph H) as (SI & L & P).
    destruct (nth_error (kw_ph (krun elements cs)) p) as [k|] eqn:EK; [|apply nth_error_None in EK; assert (nth_error ph p <> None) as X by congruence; apply nth_error_Some in X; lia].
    pose proof (P p k syms EK N1) as F. destruct (F2_right _ _ _ F _ _ N2) as (a & e & M & _). exists e; auto. }
  destruct K as [e M]. destruct (factor_ok cs s ph p i q e tp r H SY M Rr) as (v & -> & FV).
  destruct (history_total (rev (cs ++ [c]))) as (s' & ph' & H'). pose proof H' as H2. rewrite rev_app_distr in H2. cbn [rev app] in H2.
  assert (X : symbol_of ph' p i q /\ factor_is p e r s' v).
  { inversion H2; subst; match goal with HH : history (rev cs) ?a ?b |- _ => destruct (history_unique _ _ _ _ _ H HH); subst end; cbn [unrelated] in U; split; auto; try contradiction.
    - destruct SY as (sy & N1 & N2). exists sy. split; auto. rewrite nth_error_app1; auto. apply nth_error_Some. congruence.
    - apply FI_new; auto.
    - apply FI_set_other; auto. destruct U as [U|[U|U]]; auto. right; left. apply (U i q); auto.
    - apply FI_reset_other; auto. destruct U as [U|U]; auto. right. apply (U i q); auto.
    - apply FI_get; auto. }
  destruct X as [SY' FV']. destruct (factor_ok _ s' ph' p i q e tp r H' SY' M Rr) as (v' & -> & F'). f_equal. eapply factor_unique; eauto.
Qed.
