From Coq Require Import List ZArith Ascii Bool Lia.
From Verif Require Import Base ParamModel ParamProof ParserModel ParserLex ParserSafe ParserSpec
  ParserGram ParserProof ParserUsed Util MatrixModel MatrixProof ConModel ConSpec.
Import ListNotations.

Section Proof.
Context {T : Type} (N : numops T) (builtins : list (builtin T)).

Lemma find_used_in k u i : find_used k u = Some i -> nth_error u i = Some k.
Proof. apply find_used_nth. Qed.

(** * storing derivatives *)
Lemma store_derivs_ok (t : ptab T) i d : forall used iu r (m : matrix T),
  mwf m -> i < mrows m -> NoDup used ->
  (forall k, In k used -> k < length (pfree t) /\ k < mcols m) ->
  (forall j k, nth_error used j = Some k -> nth_error (pfree t) k = Some true -> iu + j < length d) ->
  exists m', store_derivs t i used d iu r m =
      Ok (r || existsb (fun k => match nth_error (pfree t) k with Some b => b | None => false end) used, m') /\
    mwf m' /\ mrows m' = mrows m /\ mcols m' = mcols m /\
    (forall i' j, i' <> i -> mx_get m' i' j = mx_get m i' j) /\
    (forall k, ~ In k used \/ nth_error (pfree t) k <> Some true -> mx_get m' i k = mx_get m i k) /\
    (forall j k, nth_error used j = Some k -> nth_error (pfree t) k = Some true ->
       omap (@Some T) (mx_get m' i k) = Ok (nth_error d (iu + j))).
Proof.
  induction used as [|k us IH]; intros iu r m W Hi ND B D.
  - exists m. simpl. rewrite orb_false_r. repeat split; auto. intros [|j]; discriminate.
  - inversion ND as [|? ? N1 N2]; subst. destruct (B k) as [B1 B2]; [left; auto|].
    simpl. destruct (rd_ok (pfree t) k B1) as (b & E1 & E2). rewrite E2, E1. simpl.
    destruct b.
    + assert (L : iu < length d). { specialize (D 0 k eq_refl E1). lia. }
      destruct (rd_ok d iu L) as (x & X1 & X2). rewrite X2. simpl.
      destruct (mx_set_spec m i k x W Hi B2) as (m1 & M1 & M2 & M3 & M4 & M5 & M6). rewrite M1. simpl.
      destruct (IH (S iu) true m1) as (m' & A1 & A2 & A3 & A4 & A5 & A6 & A7); auto; try lia.
      { intros k' I. rewrite M4. apply B; right; auto. }
      { intros j k' E F. specialize (D (S j) k' E F). lia. }
      exists m'. rewrite A1. split. { simpl. rewrite orb_true_r. auto. }
      split; auto. split; [congruence|]. split; [congruence|]. split; [|split].
      * intros i' j NE. rewrite A5 by auto. apply M6. congruence.
      * intros k' H. simpl in H. rewrite A6 by tauto. apply M6. intros Q. inversion Q; subst. tauto.
      * intros [|j] k' E F; simpl in E.
        -- inversion E; subst k'. rewrite A6 by auto. rewrite M5. simpl. rewrite Nat.add_0_r, X1. auto.
        -- replace (iu + S j) with (S iu + j) by lia. apply A7; auto.
    + destruct (IH (S iu) r m) as (m' & A1 & A2 & A3 & A4 & A5 & A6 & A7); auto.
      { intros k' I. apply B; right; auto. }
      { intros j k' E F. specialize (D (S j) k' E F). lia. }
      exists m'. rewrite A1. split; auto. repeat (split; auto).
      * intros k' H. apply A6. simpl in H. tauto.
      * intros [|j] k' E F; simpl in E. congruence. replace (iu + S j) with (S iu + j) by lia. apply A7; auto.
Qed.

Lemma mx_set_wf (m : matrix T) i k x m' : mwf m -> mx_set m i k x = Ok m' ->
  mwf m' /\ mrows m' = mrows m /\ mcols m' = mcols m.
Proof.
  intros W M. assert (i < mrows m /\ k < mcols m) as [Hi Hk].
  { unfold mx_set in M. destruct (Nat.ltb_spec i (mrows m)); [|discriminate].
    destruct (Nat.ltb_spec k (mcols m)); [|discriminate]. auto. }
  destruct (mx_set_spec m i k x W Hi Hk) as (m2 & M1 & M2 & M3 & M4 & _).
  assert (m2 = m') by congruence. subst m2. auto.
Qed.

(** store_derivs changes nothing outside row i and keeps the shape, whatever happens *)
Lemma store_derivs_frame (t : ptab T) i d : forall used iu r (m : matrix T) r' m',
  mwf m -> store_derivs t i used d iu r m = Ok (r', m') ->
  mwf m' /\ mrows m' = mrows m /\ mcols m' = mcols m.
Proof.
  induction used as [|k us IH]; intros iu r m r' m' W H; simpl in H.
  - inversion H; subst; auto.
  - apply obind_ok in H as (b & _ & H). destruct b.
    + apply obind_ok in H as (x & _ & H). apply obind_ok in H as (m1 & M & H).
      assert (i < mrows m /\ k < mcols m) as [Hi Hk].
      { unfold mx_set in M. destruct (Nat.ltb_spec i (mrows m)); [|discriminate].
        destruct (Nat.ltb_spec k (mcols m)); [|discriminate]. auto. }
      destruct (mx_set_spec m i k x W Hi Hk) as (m2 & M1 & M2 & M3 & M4 & _).
      assert (m2 = m1) by congruence. subst m2.
      apply IH in H as (A & B & C); auto. repeat split; congruence.
    + apply IH in H; auto.
Qed.

(** * derivative vectors of formulas with a free parameter are not empty *)
Lemma dmap_nonnil (s : pstate T) f d d' : dmap s f d = Ok d' -> d <> [] -> d' <> [].
Proof.
  unfold dmap. destruct d as [|x d]; [congruence|]. destruct (_ =? _)%nat; [|discriminate].
  intros H _. inversion H. simpl. discriminate.
Qed.

Lemma binop_nonnil (s : pstate T) c v1 d1 v2 d2 v d : nused s <> 0 ->
  binop N s c v1 d1 v2 d2 = Ok (v, d) -> d1 <> [] \/ d2 <> [] -> d <> [].
Proof.
  intros NU H D. unfold binop in H.
  set (base := match d1, d2 with [], [] => [] | _, _ => dzero N s end) in *.
  assert (B : base <> []).
  { subst base. assert (dzero N s <> []). { unfold dzero. destruct (nused s); [congruence|]. discriminate. }
    destruct d1, d2; auto. destruct D; congruence. }
  set (start := match d1 with [] => base | _ => d1 end) in *.
  assert (S : start <> []) by (subst start; destruct d1; [auto|discriminate]).
  assert (AC : forall f b x y, b <> [] -> dacc s f b x = Ok y -> y <> []).
  { intros f b x y Hb Hy. unfold dacc in Hy. destruct x as [|x0 x]. inversion Hy; subst; auto.
    destruct b as [|b0 b]; [congruence|].
    destruct ((List.length (x0 :: x) =? nused s) && (List.length (b0 :: b) =? nused s))%nat; [|discriminate].
    inversion Hy. simpl. discriminate. }
  destruct (negb (deriv s)). { inversion H; subst; auto. }
  apply omap_ok in H as (d0 & H & E). inversion E; subst.
  destruct (Ascii.eqb c "+"); [eauto|]. destruct (Ascii.eqb c "-"); [eauto|].
  destruct (Ascii.eqb c "*"); apply obind_ok in H as (b1 & H1 & H2); eauto.
Qed.

Lemma ad_nonnil P (s : pstate T) n x e : nused s <> 0 -> In n (pars e) -> P n = Some x -> snd x <> [] ->
  forall v d, ad N builtins P s e = Ok (v, d) -> d <> [].
Proof.
  intros NU. induction e; simpl; intros I HP HX v d H.
  - tauto.
  - destruct I as [->|[]]. rewrite HP in H. inversion H; subst. auto.
  - apply obind_ok in H as ([v0 d0] & H1 & H2). apply omap_ok in H2 as (d' & H2 & H3). inversion H3; subst.
    eapply dmap_nonnil; eauto.
  - apply obind_ok in H as ([v1 d1] & H1 & H). apply obind_ok in H as ([v2 d2] & H2 & H).
    eapply binop_nonnil; eauto. apply in_app_iff in I as [I|I]; eauto.
  - destruct (find_builtin builtins f); [|discriminate].
    apply obind_ok in H as ([v0 d0] & H1 & H2). apply omap_ok in H2 as (d' & H2 & H3). inversion H3; subst.
    eapply dmap_nonnil; eauto.
Qed.

Lemma ev_def (env : Z -> option T) e v n : ev N builtins env e = Some v -> In n (pars e) -> env n <> None.
Proof. intros H I. eapply ev_pars; eauto. Qed.

(** everything fill_variables needs of a formula *)
Lemma parse_full (t : ptab T) line e v : wf t -> gexp line e ->
  (Z.of_nat (List.length line) <= 2147483647)%Z -> ev N builtins (env_of t) e = Some v ->
  exists d used, parse N builtins t line = Ok (v, d, used) /\ NoDup used /\
    (forall k, In k used -> k < length (pval t)) /\
    (forall k, In k used <-> exists n, In n (pars e) /\ parfind t n = Some k) /\
    (forall j k, nth_error used j = Some k -> nth_error (pfree t) k = Some true -> j < length d).
Proof.
  intros W G L EV. destruct gram_nohash as (_ & _ & NH).
  destruct (parse_gram N builtins t line e v W G (NH _ _ G) L EV)
    as (d & used & flags & A1 & A2 & A3 & A4 & A5 & A6 & A7).
  destruct (parse_used N builtins t line e v d used G A1) as (U1 & U2).
  rewrite Forall_forall in A7.
  exists d, used. repeat (split; auto).
  - intros (n & I & E). pose proof (A4 n I) as S. unfold slot in S. rewrite E in S.
    destruct (find_used k used) eqn:F; [|congruence]. apply find_used_in in F. eapply nth_error_In; eauto.
  - intros j k E F.
    assert (Lj : j < length used) by (apply nth_error_Some; congruence).
    destruct A6 as [A6|A6]; [|lia]. exfalso.
    pose proof (used_flags_nth t used flags A2 j k E) as FL. rewrite F in FL.
    destruct (U2 k) as (n & I & P); [eapply nth_error_In; eauto|].
    assert (exists x, pdual N t used flags n = Some x /\ snd x <> []) as (x & X1 & X2).
    { unfold pdual. rewrite P. destruct (nth_error (pval t) k) eqn:Ev.
      2:{ apply nth_error_None in Ev. specialize (A7 k (nth_error_In _ _ E)). lia. }
      assert (find_used k used = Some j) as ->.
      { destruct (find_used k used) eqn:Fu.
        - apply find_used_in in Fu. f_equal. rewrite NoDup_nth_error in U1. apply U1. apply nth_error_Some; congruence. congruence.
        - apply find_used_none in Fu. exfalso. apply Fu. eapply nth_error_In; eauto. }
      eexists; split; [reflexivity|]. simpl. rewrite (nth_error_nth flags j false (eq_sym FL)).
      unfold unit_vec. destruct (length used); [lia|]. discriminate. }
    assert (NU : nused (init_st N used [] flags) <> 0) by (unfold init_st; simpl; lia).
    exact (ad_nonnil _ _ n x e NU I X1 X2 v d A5 A6).
Qed.

(** * one entry *)
Lemma set_ref_nth i r l : forall j, nth_error (set_ref i r l) j =
  match nth_error l j with
  | Some e => Some (if j =? i then mkCon (cvar e) (cform e) (cidef e) (ctype e) r else e)
  | None => None
  end.
Proof.
  intros j. unfold set_ref. destruct (nth_error l i) as [e|] eqn:E.
  - destruct (Nat.eqb_spec j i).
    + subst. rewrite upd_same, E by (apply nth_error_Some; congruence). auto.
    + rewrite upd_other by auto. destruct (nth_error l j); auto.
  - destruct (nth_error l j) eqn:F; auto. destruct (Nat.eqb_spec j i); auto. congruence.
Qed.

Lemma set_ref_length i r l : length (set_ref i r l) = length l.
Proof. unfold set_ref. destruct (nth_error l i); auto. apply upd_length. Qed.

Lemma set_ref_holds i r l cs : Forall2 holds l cs -> Forall2 holds (set_ref i r l) cs.
Proof.
  intros H. unfold set_ref. destruct (nth_error l i) as [e|] eqn:E; auto.
  revert i E. induction H as [|e' c l cs H1 H2 IH]; intros [|i] E; simpl in *; try discriminate.
  - inversion E; subst e'. constructor; auto.
  - constructor; auto.
Qed.

Definition shape (s : cstate T) : Prop :=
  wf (ctab s) /\ mwf (cdvdp s) /\ mrows (cdvdp s) = length (cons_ s) /\ mcols (cdvdp s) = length (pval (ctab s)).

Definition kpar_der (k : pkind) (p : T) : T :=
  match k with
  | KIdent => n_one N
  | KComp => n_opp N (n_one N)
  | KSqr => n_mul N (n_add N (n_one N) (n_one N)) p
  end.

(** the derivatives of constraint [c] are stored in row i *)
Definition stored (t : ptab T) (c : con) (i : nat) (m : matrix T) : Prop :=
  match c with
  | KForm line e => exists v d used, parse N builtins t line = Ok (v, d, used) /\
      forall j k, nth_error used j = Some k -> nth_error (pfree t) k = Some true ->
        omap (@Some T) (mx_get m i k) = Ok (nth_error d j)
  | KPar k n => forall j p, parfind t n = Some j -> getpar t n = Ok p -> mx_get m i j = Ok (kpar_der k p)
  end.

Lemma existsb_used (t : ptab T) used l :
  (forall k, In k used <-> exists n, In n l /\ parfind t n = Some k) ->
  existsb (fun k => match nth_error (pfree t) k with Some b => b | None => false end) used =
  existsb (is_free t) l.
Proof.
  intros H. apply eq_true_iff_eq. rewrite !existsb_exists. split.
  - intros (k & I & F). apply H in I as (n & I & P). exists n. unfold is_free. rewrite P. auto.
  - intros (n & I & F). unfold is_free in F. destruct (parfind t n) as [k|] eqn:P; [|discriminate].
    exists k. split; auto. apply H. eauto.
Qed.

Lemma fill_one_ok (s : cstate T) i e a c v : shape s -> nth_error (cons_ s) i = Some e -> holds e (a, c) -> con_ok c ->
  con_val N builtins (env_of (ctab s)) c = Some v ->
  exists m, fill_one N builtins s i =
      (mkCst (ctab s) (set_ref i (existsb (is_free (ctab s)) (con_pars c)) (cons_ s)) m (mem_set (cmem s) a v), Ok tt) /\
    mwf m /\ mrows m = mrows (cdvdp s) /\ mcols m = mcols (cdvdp s) /\
    (forall i' j, i' <> i -> mx_get m i' j = mx_get (cdvdp s) i' j) /\
    (forall k, (forall n, In n (con_pars c) -> parfind (ctab s) n <> Some k) -> mx_get m i k = mx_get (cdvdp s) i k) /\
    stored (ctab s) c i m.
Proof.
  intros (W & WM & R & C) E [Ha Hc] OK V. simpl in Ha, Hc. subst a.
  assert (Li : i < length (cons_ s)) by (apply nth_error_Some; congruence).
  unfold fill_one. rewrite E. destruct c as [line tr|k n]; simpl in V.
  - destruct OK as (O1 & O2 & O3). rewrite Hc. destruct line as [|ch line]; [congruence|].
    destruct (parse_full (ctab s) _ tr v W O2 O3 V) as (d & used & P1 & P2 & P3 & P4 & P5).
    rewrite P1. destruct W as (W1 & W2 & W3).
    destruct (store_derivs_ok (ctab s) i d used 0 false (cdvdp s)) as (m & A1 & A2 & A3 & A4 & A5 & A6 & A7); auto; try lia.
    { intros k I. specialize (P3 k I). lia. }
    rewrite A1. simpl. exists m. rewrite (existsb_used _ _ _ P4). repeat (split; auto).
    + intros k H. apply A6. left. intros I. apply P4 in I as (n & I & Q). apply (H n); auto.
    + exists v, d, used. split; auto.
  - destruct Hc as (H1 & H2 & H3). rewrite H1, H2.
    unfold env_of, getpar in V. destruct (parfind (ctab s) n) as [j|] eqn:P; [|discriminate].
    destruct (nth_error (pval (ctab s)) j) as [p|] eqn:Ep; [|discriminate].
    assert (Lj : j < length (pval (ctab s))) by (apply nth_error_Some; congruence).
    destruct W as (W1 & W2 & W3).
    destruct (nth_error (pfree (ctab s)) j) as [b|] eqn:Eb.
    2:{ apply nth_error_None in Eb. lia. }
    destruct (mx_set_spec (cdvdp s) i j (kpar_der k p) WM) as (m & M1 & M2 & M3 & M4 & M5 & M6); try lia.
    exists m. simpl con_pars. simpl existsb. rewrite orb_false_r. unfold is_free. rewrite P, Eb.
    rewrite H3. split.
    { destruct k; simpl in V; inversion V; subst v; simpl in M1; rewrite M1; auto. }
    repeat (split; auto).
    + intros i' j' NE. apply M6. congruence.
    + intros k' H. apply M6. intros Q. inversion Q. apply (H _ (or_introl eq_refl)). congruence.
    + simpl. intros j' p' Q Gp. rewrite P in Q. inversion Q; subst j'. unfold getpar in Gp. rewrite P, Ep in Gp.
      inversion Gp; subst. auto.
Qed.

(** * the loop *)
Lemma last_con_snoc a cs b c : last_con a (cs ++ [(b, c)]) = if b =? a then Some c else last_con a cs.
Proof.
  induction cs as [|[b' c'] cs IH]; simpl. destruct (b =? a); auto.
  rewrite IH. destruct (b =? a); auto.
Qed.

(** state in the middle of the loop: entries below i are done *)
Definition done (s0 s : cstate T) (cs : list (nat * con)) (i : nat) : Prop :=
  ctab s = ctab s0 /\ Forall2 holds (cons_ s) cs /\ shape s /\
  (forall a, cmem s a = match last_con a (firstn i cs) with
                        | Some c => match con_val N builtins (env_of (ctab s0)) c with Some v => v | None => cmem s0 a end
                        | None => cmem s0 a end) /\
  (forall j e, nth_error (cons_ s) j = Some e -> i <= j -> nth_error (cons_ s0) j = Some e) /\
  (forall j e a c, nth_error (cons_ s) j = Some e -> nth_error cs j = Some (a, c) -> j < i ->
     cref e = existsb (is_free (ctab s0)) (con_pars c)) /\
  (forall j a c, nth_error cs j = Some (a, c) -> j < i -> stored (ctab s0) c j (cdvdp s) /\
     forall k, (forall n, In n (con_pars c) -> parfind (ctab s0) n <> Some k) ->
       mx_get (cdvdp s) j k = mx_get (cdvdp s0) j k) /\
  (forall j k, i <= j -> mx_get (cdvdp s) j k = mx_get (cdvdp s0) j k).

Lemma stored_frame (t : ptab T) c i m m' : (forall j, mx_get m' i j = mx_get m i j) -> stored t c i m -> stored t c i m'.
Proof.
  intros H. destruct c as [line tr|k n]; simpl.
  - intros (v & d & used & A & B). exists v, d, used. split; auto. intros; rewrite H; auto.
  - intros A j p P G. rewrite H. auto.
Qed.

Lemma done_step s0 s cs i a c v : done s0 s cs i -> Forall (fun ac => con_ok (snd ac)) cs ->
  nth_error cs i = Some (a, c) -> con_val N builtins (env_of (ctab s0)) c = Some v ->
  exists s', fill_one N builtins s i = (s', Ok tt) /\ done s0 s' cs (S i).
Proof.
  intros (D1 & D2 & D3 & D4 & D5 & D6 & D7 & D8) OK Ec V.
  destruct (Forall2_nth_r _ _ _ _ _ D2 Ec) as (e & Ee & He).
  pose proof (Forall_nth_error _ _ _ _ OK Ec) as Oc. simpl in Oc.
  rewrite <- D1 in V.
  destruct (fill_one_ok s i e a c v D3 Ee He Oc V) as (m & F1 & F2 & F3 & F4 & F5 & F6 & F7).
  eexists; split; [exact F1|]. rewrite D1 in *.
  destruct D3 as (S1 & S2 & S3 & S4).
  split; [auto|]. split; [simpl; apply set_ref_holds; auto|]. split.
  { unfold shape; simpl. rewrite set_ref_length. repeat split; auto; try congruence. all: rewrite D1 in S1; apply S1. }
  split; [|split; [|split; [|split]]]; cbn [cmem ctab cons_ cdvdp].
  - intros b. rewrite (firstn_S_nth _ _ _ Ec), last_con_snoc. unfold mem_set. rewrite (Nat.eqb_sym b a).
    destruct (a =? b). rewrite V; auto. apply D4.
  - intros j e' E L. rewrite set_ref_nth in E. destruct (nth_error (cons_ s) j) eqn:Ej; [|discriminate].
    destruct (Nat.eqb_spec j i); [lia|]. inversion E; subst. apply D5; auto. lia.
  - intros j e' a' c' E Ec' L. rewrite set_ref_nth in E. destruct (nth_error (cons_ s) j) eqn:Ej; [|discriminate].
    destruct (Nat.eqb_spec j i).
    + subst j. rewrite Ec in Ec'. inversion Ec'; subst. inversion E; subst. auto.
    + inversion E; subst. eapply D6; eauto. lia.
  - intros j a' c' Ec' L. destruct (Nat.eq_dec j i).
    + subst j. rewrite Ec in Ec'. inversion Ec'; subst. split; auto. intros k H. rewrite F6 by auto. apply D8; auto.
    + destruct (D7 j a' c' Ec') as [A B]; [lia|]. split.
      * eapply stored_frame; [|exact A]. auto.
      * intros k H. rewrite F5 by auto. auto.
  - intros j k L. rewrite F5 by lia. apply D8. lia.
Qed.

Lemma fill_loop_done cs : forall n i s0 s, done s0 s cs i -> Forall (fun ac => con_ok (snd ac)) cs ->
  i + n <= length cs ->
  (forall a c, In (a, c) cs -> con_val N builtins (env_of (ctab s0)) c <> None) ->
  exists s', fill_loop N builtins s n i = (s', Ok tt) /\ done s0 s' cs (i + n).
Proof.
  induction n as [|n IH]; intros i s0 s D OK L V.
  - exists s. rewrite Nat.add_0_r. auto.
  - destruct (nth_error cs i) as [[a c]|] eqn:Ec. 2:{ apply nth_error_None in Ec. lia. }
    destruct (con_val N builtins (env_of (ctab s0)) c) as [v|] eqn:Ev.
    2:{ exfalso. eapply V; eauto. eapply nth_error_In; eauto. }
    destruct (done_step s0 s cs i a c v D OK Ec Ev) as (s' & E & D').
    destruct (IH (S i) s0 s' D' OK) as (s2 & E2 & D2); auto. lia.
    exists s2. simpl. rewrite E. split; auto. replace (i + S n) with (S i + n) by lia. auto.
Qed.

(** state after fill_variables in terms of the state before *)
Definition filled (s s' : cstate T) (cs : list (nat * con)) : Prop :=
  ctab s' = ctab s /\ table s' cs /\
  (forall a, cmem s' a = match last_con a cs with
                         | Some c => match con_val N builtins (env_of (ctab s)) c with Some v => v | None => cmem s a end
                         | None => cmem s a end) /\
  (forall j e a c, nth_error (cons_ s') j = Some e -> nth_error cs j = Some (a, c) ->
     cref e = existsb (is_free (ctab s)) (con_pars c)) /\
  mwf (cdvdp s') /\ mrows (cdvdp s') = length cs /\ mcols (cdvdp s') = length (pval (ctab s)) /\
  (forall j a c, nth_error cs j = Some (a, c) -> stored (ctab s) c j (cdvdp s') /\
     forall k, k < length (pval (ctab s)) -> (forall n, In n (con_pars c) -> parfind (ctab s) n <> Some k) ->
       mx_get (cdvdp s') j k =
         if ((j <? mrows (cdvdp s)) && (k <? mcols (cdvdp s)))%bool then mx_get (cdvdp s) j k else Ok (n_zero N)).

Lemma done_init (s : cstate T) m cs : wf (ctab s) -> Forall2 holds (cons_ s) cs -> mwf m ->
  mrows m = length (cons_ s) -> mcols m = length (pval (ctab s)) ->
  let s1 := mkCst (ctab s) (cons_ s) m (cmem s) in done s1 s1 cs 0.
Proof.
  intros W F M1 M2 M3 s1. unfold done. simpl. repeat (split; auto). all: intros; lia.
Qed.

Lemma fill_variables_ok (s : cstate T) cs : wf (ctab s) -> mwf (cdvdp s) -> table s cs ->
  (forall a c, In (a, c) cs -> con_val N builtins (env_of (ctab s)) c <> None) ->
  exists s', fill_variables N builtins s = (s', Ok tt) /\ filled s s' cs.
Proof.
  intros W M [F OK] V. unfold fill_variables.
  destruct (mx_resize_spec (n_zero N) (cdvdp s) (length (cons_ s)) (length (pval (ctab s))) M)
    as (m & R1 & R2 & R3 & R4 & R5).
  rewrite R1. pose proof (done_init s m cs W F R2 R3 R4) as D. simpl in D.
  pose proof (Forall2_length _ _ _ F) as Len.
  destruct (fill_loop_done cs (length (cons_ s)) 0 _ _ D OK) as (s' & E & D'); auto. lia.
  exists s'. split; auto. simpl in D'. destruct D' as (D1 & D2 & (S1 & S2 & S3 & S4) & D4 & D5 & D6 & D7 & D8).
  simpl in *. rewrite Len, firstn_all in *.
  pose proof (Forall2_length _ _ _ D2) as Len2.
  split; auto. split; [split; auto|]. split; auto. split.
  { intros j e a c Ej Ec. eapply D6; eauto. apply nth_error_Some. congruence. }
  split; auto. split; [congruence|]. split; [congruence|].
  intros j a c Ec. assert (j < length cs) by (apply nth_error_Some; congruence).
  destruct (D7 j a c Ec) as [A B]; auto. split; auto.
  intros k Lk H'. rewrite B by auto. apply R5; auto.
Qed.

(** * errors *)
Lemma con_val_none_env (t : ptab T) c n : wf t -> con_ok c -> In n (con_pars c) -> getpar t n = Err ErrUnassigned ->
  match c with KForm line _ => parse N builtins t line = Err ErrConstraint | KPar _ m => parfind t m = None end.
Proof.
  intros W OK I U. destruct c as [line e|k m]; simpl in *.
  - destruct OK as (_ & G & _). eapply parse_undefined; eauto.
  - destruct I as [->|[]]. unfold getpar in U. destruct (parfind t n) as [k'|]; auto.
    destruct (nth_error (pval t) k'); discriminate.
Qed.

Lemma fill_one_err (s : cstate T) i e a c n : wf (ctab s) -> nth_error (cons_ s) i = Some e -> holds e (a, c) ->
  con_ok c -> In n (con_pars c) -> getpar (ctab s) n = Err ErrUnassigned ->
  exists s', fill_one N builtins s i = (s', Err ErrConstraint) /\ ctab s' = ctab s /\ cmem s' = cmem s.
Proof.
  intros W E [Ha Hc] OK I U. pose proof (con_val_none_env (ctab s) c n W OK I U) as H.
  unfold fill_one. rewrite E. destruct c as [line tr|k m]; simpl in Hc.
  - rewrite Hc. destruct OK as (O1 & _). destruct line; [congruence|]. rewrite H. eexists; split; [reflexivity|]. auto.
  - destruct Hc as (-> & -> & _). rewrite H. eexists; split; [reflexivity|]. auto.
Qed.

Lemma fill_loop_split : forall n1 n2 i s s1, fill_loop N builtins s n1 i = (s1, Ok tt) ->
  fill_loop N builtins s (n1 + n2) i = fill_loop N builtins s1 n2 (i + n1).
Proof.
  induction n1 as [|n1 IH]; intros n2 i s s1 H; simpl in H |- *.
  - inversion H; subst. rewrite Nat.add_0_r. auto.
  - destruct (fill_one N builtins s i) as [s' [[]|x| |]]; try discriminate.
    rewrite (IH n2 (S i) s' s1 H). f_equal. lia.
Qed.

Lemma fill_variables_undefined (s : cstate T) cs1 a c cs2 n : wf (ctab s) -> mwf (cdvdp s) -> 
  table s (cs1 ++ (a, c) :: cs2) ->
  (forall a c, In (a, c) cs1 -> con_val N builtins (env_of (ctab s)) c <> None) ->
  In n (con_pars c) -> getpar (ctab s) n = Err ErrUnassigned ->
  exists s', fill_variables N builtins s = (s', Err ErrConstraint) /\ ctab s' = ctab s /\
    forall b, cmem s' b = match last_con b cs1 with
                         | Some k => match con_val N builtins (env_of (ctab s)) k with Some v => v | None => cmem s b end
                         | None => cmem s b end.
Proof.
  intros W M [F OK] V I U. unfold fill_variables.
  destruct (mx_resize_spec (n_zero N) (cdvdp s) (length (cons_ s)) (length (pval (ctab s))) M)
    as (m & R1 & R2 & R3 & R4 & R5).
  rewrite R1. pose proof (done_init s m _ W F R2 R3 R4) as D. simpl in D.
  set (s0 := mkCst (ctab s) (cons_ s) m (cmem s)) in *.
  pose proof (Forall2_length _ _ _ F) as Len. rewrite app_length in Len. simpl in Len.
  assert (exists s1, fill_loop N builtins s0 (length cs1) 0 = (s1, Ok tt) /\ done s0 s1 (cs1 ++ (a, c) :: cs2) (length cs1))
    as (s1 & E1 & D1).
  { assert (G : forall k, k <= length cs1 -> exists s1, fill_loop N builtins s0 k 0 = (s1, Ok tt) /\
                 done s0 s1 (cs1 ++ (a, c) :: cs2) k).
    { induction k as [|k IH]; intros L. exists s0. auto.
      destruct IH as (s1 & E1 & D1); [lia|].
      destruct (nth_error cs1 k) as [[b d]|] eqn:Ek. 2:{ apply nth_error_None in Ek. lia. }
      assert (Ek' : nth_error (cs1 ++ (a, c) :: cs2) k = Some (b, d)) by (rewrite nth_error_app1; auto; lia).
      destruct (con_val N builtins (env_of (ctab s0)) d) as [v|] eqn:Ev.
      2:{ exfalso. eapply V; eauto. eapply nth_error_In; eauto. }
      destruct (done_step s0 s1 _ k b d v D1 OK Ek' Ev) as (s2 & E2 & D2).
      exists s2. split; auto. replace (S k) with (k + 1) by lia. rewrite (fill_loop_split _ _ _ _ _ E1). simpl.
      rewrite E2. auto. }
    apply G. auto. }
  replace (length (cons_ s)) with (length cs1 + (S (length cs2))) by lia.
  rewrite (fill_loop_split _ _ _ _ _ E1). simpl.
  destruct D1 as (A1 & A2 & A3 & A4 & _).
  assert (Ec : nth_error (cs1 ++ (a, c) :: cs2) (length cs1) = Some (a, c)).
  { rewrite nth_error_app2, Nat.sub_diag by lia. auto. }
  destruct (Forall2_nth_r _ _ _ _ _ A2 Ec) as (e & Ee & He).
  pose proof (Forall_nth_error _ _ _ _ OK Ec) as Oc. simpl in Oc.
  destruct (fill_one_err s1 (length cs1) e a c n) as (s' & E' & T' & M'); auto.
  { rewrite A1. auto. } { rewrite A1. auto. }
  rewrite E'. exists s'. split; auto. split. rewrite T', A1. auto.
  intros b. rewrite M', A4. rewrite firstn_app, firstn_all, Nat.sub_diag, app_nil_r. auto.
Qed.

(** * frame: variables under no constraint, whatever the formulas *)
Definition strip (e : centry) := (cvar e, cform e, cidef e, ctype e).

Lemma fill_one_frame (s : cstate T) i s' r : fill_one N builtins s i = (s', r) -> mwf (cdvdp s) ->
  ctab s' = ctab s /\ map strip (cons_ s') = map strip (cons_ s) /\ mwf (cdvdp s') /\
  (forall a, (forall e, In e (cons_ s) -> cvar e <> a) -> cmem s' a = cmem s a).
Proof.
  assert (MV : forall b l, map strip (set_ref i b l) = map strip l).
  { intros b l. unfold set_ref. destruct (nth_error l i) as [e|] eqn:E; auto.
    revert i E. clear. induction l as [|x l IH]; intros [|i] E; simpl in *; try discriminate.
    inversion E; subst; auto. f_equal; auto. }
  assert (MS : forall m a v, (forall e, In e (cons_ s) -> cvar e <> a) -> forall e, nth_error (cons_ s) i = Some e ->
     mem_set m (cvar e) v a = (m a : T)).
  { intros m a v H e E. unfold mem_set. destruct (Nat.eqb_spec a (cvar e)); auto.
    exfalso. apply (H e); auto. eapply nth_error_In; eauto. }
  intros H M. unfold fill_one in H. destruct (nth_error (cons_ s) i) as [e|] eqn:E.
  2:{ inversion H; subst; auto. }
  destruct (cform e) as [|ch f].
  - destruct (parfind (ctab s) (cidef e)) as [k|]. 2:{ inversion H; subst; simpl; auto. }
    destruct (nth_error (pfree (ctab s)) k) as [fr|]. 2:{ inversion H; subst; simpl; auto. }
    destruct (nth_error (pval (ctab s)) k) as [p|]. 2:{ inversion H; subst; simpl; auto. }
    assert (G : forall v dv, (match mx_set (cdvdp s) i k dv with
       | Ok m => (mkCst (ctab s) (set_ref i fr (cons_ s)) m (mem_set (cmem s) (cvar e) v), Ok tt)
       | _ => (mkCst (ctab s) (set_ref i false (cons_ s)) (cdvdp s) (cmem s), UB) end) = (s', r) ->
       ctab s' = ctab s /\ map strip (cons_ s') = map strip (cons_ s) /\ mwf (cdvdp s') /\
        (forall a, (forall e, In e (cons_ s) -> cvar e <> a) -> cmem s' a = cmem s a)).
    { intros v dv G. destruct (mx_set (cdvdp s) i k dv) as [m|x| |] eqn:Em; inversion G; subst; simpl; auto.
      repeat split; auto. eapply mx_set_wf; eauto. }
    destruct (ctype e); eauto. inversion H; subst; simpl; auto.
  - destruct (parse N builtins (ctab s) (ch :: f)) as [[[v d] used]|x| |]; try (inversion H; subst; simpl; auto; fail).
    destruct (store_derivs (ctab s) i used d 0 false (cdvdp s)) as [[r' m]|x| |] eqn:Es; inversion H; subst; simpl; auto.
    repeat split; auto. eapply store_derivs_frame; eauto.
Qed.

Lemma fill_loop_frame : forall n i (s s' : cstate T) r, fill_loop N builtins s n i = (s', r) -> mwf (cdvdp s) ->
  ctab s' = ctab s /\ map strip (cons_ s') = map strip (cons_ s) /\ mwf (cdvdp s') /\
  (forall a, (forall e, In e (cons_ s) -> cvar e <> a) -> cmem s' a = cmem s a).
Proof.
  induction n as [|n IH]; intros i s s' r H M; simpl in H.
  - inversion H; subst; auto.
  - destruct (fill_one N builtins s i) as [s1 r1] eqn:E.
    destruct (fill_one_frame s i s1 r1 E M) as (A & B & C & D).
    destruct r1; try (inversion H; subst; auto; fail).
    destruct (IH (S i) s1 s' r H C) as (A' & B' & C' & D'). split; [congruence|]. split; [congruence|]. split; auto.
    intros b Hb. rewrite D', D; auto. intros e' I Q. apply (in_map strip) in I. rewrite B in I.
    apply in_map_iff in I as (e2 & Q2 & I2). apply (Hb e2 I2). unfold strip in Q2. inversion Q2. congruence.
Qed.

Lemma fill_variables_frame (s s' : cstate T) r : fill_variables N builtins s = (s', r) -> mwf (cdvdp s) ->
  ctab s' = ctab s /\ map strip (cons_ s') = map strip (cons_ s) /\ mwf (cdvdp s') /\
  (forall a, (forall e, In e (cons_ s) -> cvar e <> a) -> cmem s' a = cmem s a).
Proof.
  unfold fill_variables. intros H M.
  destruct (mx_resize_spec (n_zero N) (cdvdp s) (length (cons_ s)) (length (pval (ctab s))) M)
    as (m & R1 & R2 & _). rewrite R1 in H.
  destruct (fill_loop_frame _ _ _ _ _ H R2) as (A & B & C & D). auto.
Qed.
End Proof.
