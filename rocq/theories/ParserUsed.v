(** Which parameters a formula uses, and formulas with undefined parameters. *)
From Coq Require Import List ZArith Ascii String Bool Lia.
From Verif Require Import Base ParamModel ParamProof ParserModel ParserLex ParserSafe ParserSpec
  ParserGram ParserProof.
Import ListNotations.
Local Open Scope char_scope.

(** ids behind each '@', in order *)
Fixpoint ats (l : text) : list Z :=
  match l with
  | [] => []
  | c :: r => if Ascii.eqb c "@" then digits_val (fst (span_digits r)) :: ats r else ats r
  end.
Fixpoint ats_ok (l : text) : Prop :=
  match l with
  | [] => True
  | c :: r => (c = "@" -> fst (span_digits r) <> [] /\ (digits_val (fst (span_digits r)) <= 2147483647)%Z)
              /\ ats_ok r
  end.

Lemma ats_no a b : ~ In "@" a -> ats (a ++ b) = ats b /\ (ats_ok (a ++ b) <-> ats_ok b).
Proof.
  induction a as [|c a IH]; simpl; intros H; [tauto|].
  destruct (Ascii.eqb_spec c "@"). subst; tauto.
  destruct IH as [A B]; [tauto|]. rewrite A, B. tauto.
Qed.

Lemma span_fst_app r b : nds b -> fst (span_digits (r ++ b)) = fst (span_digits r).
Proof.
  intros N. destruct (span_digits r) as [d r'] eqn:E. apply span_digits_spec in E as (A & B & C).
  subst r. rewrite <- app_assoc. rewrite span_digits_app; auto.
  destruct r'; auto.
Qed.

Lemma ats_split a b : nds b -> ats (a ++ b) = ats a ++ ats b /\ (ats_ok (a ++ b) <-> ats_ok a /\ ats_ok b).
Proof.
  intros N. induction a as [|c a [IH1 IH2]]; simpl; [tauto|].
  rewrite span_fst_app by auto. rewrite IH1, IH2. split; [|tauto]. destruct (Ascii.eqb c "@"); auto.
Qed.

Section Used.
Context {T : Type} (N : numops T) (builtins : list (builtin T)).

Lemma digits_no_at d : Forall (fun c => is_digit c = true) d -> ~ In "@" d.
Proof. intros F I. rewrite Forall_forall in F. apply F in I. discriminate. Qed.

Lemma find_used_none k u : find_used k u = None -> ~ In k u.
Proof.
  induction u; simpl; auto. destruct (Nat.eqb_spec a k); [discriminate|].
  destruct (find_used k u); [discriminate|]. intros _ [H|H]; [congruence|]. apply IHu; auto.
Qed.

Lemma NoDup_snoc_nat (l : list nat) x : NoDup l -> ~ In x l -> NoDup (l ++ [x]).
Proof.
  induction 1; simpl; intros H1. repeat constructor; auto.
  constructor. rewrite in_app_iff. simpl. intuition. apply IHNoDup. tauto.
Qed.

Lemma subst_ats (t : ptab T) : forall fuel expr used vs, ats_ok expr -> NoDup used ->
  match subst_loop fuel t expr used vs with
  | Ok (_, used', _) => NoDup used' /\
      (forall k, In k used' -> In k used \/ exists n, In n (ats expr) /\ parfind t n = Some k) /\
      (forall n, In n (ats expr) -> parfind t n <> None)
  | Err x => x = ErrConstraint /\ exists n, In n (ats expr) /\ parfind t n = None
  | _ => True
  end.
Proof.
  induction fuel as [|fuel IH]; intros expr used vs OK ND; simpl; auto.
  destruct (split_at "@" expr) as [[pre post]|] eqn:E.
  2:{ apply split_at_none in E. pose proof (ats_no expr [] E) as [A _]. rewrite app_nil_r in A.
      rewrite A. simpl. repeat split; auto; tauto. }
  apply split_at_spec in E as [E NP]. subst expr.
  destruct (ats_no pre ("@" :: post) NP) as [A1 A2]. rewrite A1. apply A2 in OK. simpl in OK.
  destruct OK as [OK1 OK2]. specialize (OK1 eq_refl). simpl ats.
  destruct (span_digits post) as [d rest] eqn:Es. simpl in *. apply span_digits_spec in Es as (P1 & P2 & P3).
  subst post. destruct OK1 as [Hd Hv].
  rewrite scan_int_digits by auto. destruct (Z.leb_spec (digits_val d) 2147483647); [|lia].
  destruct (ats_no d rest (digits_no_at _ P2)) as [B1 B2]. rewrite B1. apply B2 in OK2.
  set (id := digits_val d) in *.
  destruct (parfind t id) as [k|] eqn:Ek.
  2:{ split; auto. exists id. simpl. auto. }
  assert (NEW : forall i, ats (pre ++ stackvar i ++ rest) = ats rest /\ ats_ok (pre ++ stackvar i ++ rest)).
  { intros i. rewrite app_assoc. destruct (ats_no (pre ++ stackvar i) rest) as [C1 C2].
    - rewrite in_app_iff. intros [I|I]; [tauto|]. revert I. apply stackvar_notin. discriminate. reflexivity.
    - split; auto. apply C2; auto. }
  destruct (find_used k used) as [i|] eqn:Ef.
  - destruct (NEW i) as [N1 N2]. specialize (IH _ used vs N2 ND). rewrite N1 in IH.
    destruct (subst_loop fuel t _ used vs) as [[[e' u'] v']| | |]; auto.
    + destruct IH as (I1 & I2 & I3). split; auto. split.
      * intros k' I. destruct (I2 k' I) as [?|(n & ? & ?)]; auto. right. exists n. simpl; auto.
      * intros n [<-|I]; auto. congruence.
    + destruct IH as (I1 & n & I2 & I3). split; auto. exists n; simpl; auto.
  - destruct (nth_error (pval t) k); auto.
    destruct (NEW (List.length used)) as [N1 N2].
    assert (ND' : NoDup (used ++ [k])).
    { apply NoDup_snoc_nat; auto. apply find_used_none; auto. }
    specialize (IH _ (used ++ [k]) (vs ++ [t0]) N2 ND'). rewrite N1 in IH.
    destruct (subst_loop fuel t _ (used ++ [k]) _) as [[[e' u'] v']| | |]; auto.
    + destruct IH as (I1 & I2 & I3). split; auto. split.
      * intros k' I. destruct (I2 k' I) as [J|(n & ? & ?)].
        apply in_app_iff in J as [J|[<-|[]]]; auto. right. exists id. simpl; auto.
        right. exists n. simpl; auto.
      * intros n [<-|I]; auto. congruence.
    + destruct IH as (I1 & n & I2 & I3). split; auto. exists n; simpl; auto.
Qed.

Lemma gram_ats :
  (forall l e, gfac l e -> ats l = pars e /\ ats_ok l) /\
  (forall l e, gterm l e -> ats l = pars e /\ ats_ok l) /\
  (forall l e, gexp l e -> ats l = pars e /\ ats_ok l).
Proof.
  assert (BL : forall w, blank w -> ~ In "@" w) by (intros; apply blank_notin; auto).
  assert (NO : forall a, ~ In "@" a -> ats a = [] /\ ats_ok a).
  { intros a H. destruct (ats_no a [] H) as [A B]. rewrite app_nil_r in *. split; auto. apply B. exact I. }
  assert (PRE : forall a b x, ~ In "@" a -> ats b = x /\ ats_ok b -> ats (a ++ b) = x /\ ats_ok (a ++ b)).
  { intros a b x H [A B]. destruct (ats_no a b H) as [C D]. rewrite C, D. auto. }
  assert (CO : forall c b x, c <> "@" -> ats b = x /\ ats_ok b -> ats (c :: b) = x /\ ats_ok (c :: b)).
  { intros c b x H K. apply (PRE [c] b x). simpl; intuition. auto. }
  assert (JO : forall a b x y, nds b -> ats a = x /\ ats_ok a -> ats b = y /\ ats_ok b -> ats (a ++ b) = x ++ y /\ ats_ok (a ++ b)).
  { intros a b x y Nb [A1 A2] [B1 B2]. destruct (ats_split a b Nb) as [C D]. rewrite C, D. split; auto. congruence. }
  apply g_mutind; intros; auto.
  - simpl. apply NO. rewrite !in_app_iff. intros [K|[K|K]].
    + revert K; apply BL; auto.
    + pose proof (numeral_chars _ _ _ _ n K) as Q. intuition discriminate.
    + revert K; apply BL; auto.
  - apply PRE; auto. destruct (ats_no w' [] (BL _ b0)) as [A1 A2]. rewrite app_nil_r in *.
    destruct (ats_no d w' (digits_no_at _ d0)) as [B1 B2]. simpl.
    assert (NW : nds w'). { rewrite <- (app_nil_r w'). apply nds_gen; auto. exact I. }
    rewrite span_digits_app by auto. simpl. rewrite B1, A1, B2, A2. rewrite decval_digits in *. simpl. repeat split; auto.
  - simpl. apply PRE; auto. apply CO; auto. discriminate.
  - apply PRE; auto. apply CO; auto. discriminate.
  - apply PRE; auto. apply CO; [discriminate|]. rewrite <- (app_nil_r (pars e)). apply JO; auto. apply nds_cons; reflexivity.
    apply CO; [discriminate|]. apply NO; auto.
  - apply PRE; auto. apply PRE. apply fname_notin; auto. apply CO; [discriminate|]. simpl. rewrite <- (app_nil_r (pars e)).
    apply JO; auto. apply nds_cons; reflexivity. apply CO; [discriminate|]. apply NO; auto.
  - simpl. apply JO; auto. apply nds_cons; destruct o; subst; reflexivity. apply CO; auto. destruct o; subst; discriminate.
  - simpl. apply JO; auto. apply nds_cons; destruct o; subst; reflexivity. apply CO; auto. destruct o; subst; discriminate.
Qed.

(** the list used of a parsed grammatical formula *)
Lemma parse_used (t : ptab T) line e v d used : gexp line e ->
  parse N builtins t line = Ok (v, d, used) ->
  NoDup used /\ (forall k, In k used -> exists n, In n (pars e) /\ parfind t n = Some k).
Proof.
  intros G H. destruct gram_ats as (_ & _ & GA). destruct (GA line e G) as [A B].
  unfold parse in H. destruct (split_at "#" line); [discriminate|].
  pose proof (subst_ats t (S (List.length line)) line [] [] B ltac:(constructor)) as S.
  destruct (subst_loop _ t line [] []) as [[[ex u] vs]| | |]; simpl in H; try discriminate.
  destruct S as (S1 & S2 & S3). destruct (used_flags t u); simpl in H; try discriminate.
  apply omap_ok in H as ([v0 d0] & _ & H). inversion H; subst. split; auto.
  intros k I. destruct (S2 k I) as [[]|(n & I1 & I2)]. exists n. rewrite <- A. auto.
Qed.

(** an undefined parameter is reported as constraintError *)
Lemma parse_undefined (t : ptab T) line e n : wf t -> gexp line e -> In n (pars e) -> getpar t n = Err ErrUnassigned ->
  parse N builtins t line = Err ErrConstraint.
Proof.
  intros W G I E. destruct gram_ats as (_ & _ & GA). destruct (GA line e G) as [A B].
  destruct gram_nohash as (_ & _ & NH). pose proof (proj2 (split_at_none _ _) (NH _ _ G)) as SH.
  assert (PN : parfind t n = None).
  { unfold getpar in E. destruct (parfind t n) as [k|]; auto. destruct (nth_error (pval t) k); discriminate. }
  pose proof (subst_ats t (S (List.length line)) line [] [] B ltac:(constructor)) as S.
  destruct W as (W1 & W2 & W3).
  pose proof (subst_loop_safe False t ltac:(congruence) (Datatypes.S (List.length line)) line [] []) as SF.
  specialize (SF ltac:(pose proof (countp_le_length (Ascii.eqb "@") line); lia)
     (tok_ok_no _ _ (NH _ _ G)) ltac:(tauto) eq_refl ltac:(constructor)).
  unfold parse. rewrite SH.
  destruct (subst_loop _ t line [] []) as [[[ex u] vs]| | |] eqn:EE; simpl.
  - destruct S as (_ & _ & S3). rewrite <- A in I. apply S3 in I. congruence.
  - destruct S as [-> _]. auto.
  - simpl in SF. tauto.
  - simpl in SF. tauto.
Qed.
End Used.
