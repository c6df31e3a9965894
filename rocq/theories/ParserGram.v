(** The parser model evaluates every text of the grammar: internal form of the
    grammar with stack references, evaluation of bracket-free texts, and
    elimination of brackets. *)
From Coq Require Import List ZArith Ascii String Bool Lia.
From Verif Require Import Base ParamModel ParamProof ParserModel ParserLex ParserSafe ParserSpec.
Import ListNotations.
Local Open Scope char_scope.

Lemma decval_acc_dval a d : decval_acc a d = dval a d.
Proof. revert a; induction d; simpl; auto. Qed.
Lemma decval_digits d : decval d = digits_val d.
Proof. apply decval_acc_dval. Qed.

Definition imax : nat := Z.to_nat 2147483647.
Global Opaque imax.
Lemma imax_Z : Z.of_nat imax = 2147483647%Z.
Proof. Transparent imax. unfold imax. rewrite Z2Nat.id; lia. Qed.
Global Opaque imax.

Definition delim (l : text) : Prop :=
  match l with [] => True | c :: _ => is_op c = true end.

Lemma op_cases c : is_op c = true -> c = "*" \/ c = "/" \/ c = "+" \/ c = "-".
Proof.
  unfold is_op. intros H.
  destruct (Ascii.eqb_spec c "*"); auto. destruct (Ascii.eqb_spec c "/"); auto.
  destruct (Ascii.eqb_spec c "+"); auto. destruct (Ascii.eqb_spec c "-"); auto. discriminate.
Qed.

Lemma op_not_space c : is_op c = true -> is_space c = false.
Proof. intros H; apply op_cases in H. destruct H as [|[|[|]]]; subst; reflexivity. Qed.

Lemma space_not_digit c : is_space c = true -> is_digit c = false.
Proof. intros. destruct (is_digit c) eqn:E; auto. apply digit_not_space in E. congruence. Qed.

Lemma skipws_blank w l : blank w -> skipws (w ++ l) = skipws l.
Proof. induction 1; simpl; auto. rewrite H; auto. Qed.

Lemma skipws_delim l : delim l -> skipws l = l.
Proof. destruct l; simpl; auto. intros H. rewrite (op_not_space _ H). auto. Qed.

Lemma nds_blank w l : blank w -> delim l -> nds (w ++ l).
Proof.
  intros B D. destruct w; simpl.
  - destruct l; simpl in *; auto. apply is_op_nodigit; auto.
  - inversion B; subst. apply space_not_digit; auto.
Qed.

(** how [w ++ l] can start *)
Lemma blank_delim_start w l : blank w -> delim l ->
  match w ++ l with [] => True | c :: _ => is_space c = true \/ is_op c = true end.
Proof.
  intros B D. destruct w; simpl. destruct l; auto. inversion B; auto.
Qed.

Lemma scan_exp_numeral ex e r : expo ex e ->
  match r with [] => True | c :: _ => is_space c = true \/ is_op c = true end ->
  scan_exp (ex ++ r) = Some (e, r).
Proof.
  intros X R.
  assert (NR : nds r).
  { destruct r; simpl in *; auto. destruct R. apply space_not_digit; auto. apply is_op_nodigit; auto. }
  assert (EE : forall c d neg, c = "e" \/ c = "E" -> digits d -> d <> [] ->
     forall l, sign_split (l ++ r) = (neg, d ++ r) ->
     scan_exp (c :: l ++ r) = Some ((if neg then - decval d else decval d)%Z, r)).
  { intros c d neg C D Hd l S. unfold scan_exp.
    replace (Ascii.eqb c "e" || Ascii.eqb c "E") with true by (destruct C; subst; reflexivity).
    rewrite S, span_digits_app by auto. rewrite decval_digits. destruct d; [congruence|auto]. }
  inversion X; subst.
  - simpl. destruct r as [|c r]; auto. simpl.
    replace (Ascii.eqb c "e" || Ascii.eqb c "E") with false; auto.
    destruct (Ascii.eqb_spec c "e"); [subst; destruct R; discriminate|].
    destruct (Ascii.eqb_spec c "E"); [subst; destruct R; discriminate|]. auto.
  - apply (EE c d false); auto. destruct d; [congruence|]. inversion H0; subst.
    apply sign_split_digit; auto.
  - apply (EE c d false H H0 H1 ("+" :: d)). reflexivity.
  - apply (EE c d true H H0 H1 ("-" :: d)). reflexivity.
Qed.

Lemma expo_start ex e : expo ex e ->
  match ex with [] => True | c :: _ => c = "e" \/ c = "E" end.
Proof. inversion 1; auto. Qed.

Lemma scan_numeral s m e r : numeral s m e ->
  match r with [] => True | c :: _ => is_space c = true \/ is_op c = true end ->
  scan_float (s ++ r) = Some (m, e, r).
Proof.
  intros X R.
  assert (NR : nds r).
  { destruct r; simpl in *; auto. destruct R. apply space_not_digit; auto. apply is_op_nodigit; auto. }
  inversion X; subst; unfold scan_float.
  - rewrite <- app_assoc.
    assert (nds (ex ++ r)).
    { pose proof (expo_start _ _ H1). destruct ex; simpl; auto. destruct H2; subst; reflexivity. }
    rewrite span_digits_app by auto.
    assert (scan_frac (ex ++ r) = ([], ex ++ r)) as F.
    { pose proof (expo_start _ _ H1) as S. unfold scan_frac. destruct ex as [|c ex]; simpl.
      - destruct r as [|c r]; auto. destruct (Ascii.eqb_spec c "."); auto. subst. destruct R; discriminate.
      - destruct S; subst; reflexivity. }
    rewrite F, app_nil_r. rewrite (scan_exp_numeral _ _ _ H1 R).
    rewrite decval_digits. destruct d; [congruence|]. simpl. rewrite Z.sub_0_r. auto.
  - rewrite <- app_assoc. rewrite span_digits_app; [|auto|reflexivity].
    cbn [scan_frac app]. rewrite Ascii.eqb_refl, <- app_assoc. rewrite span_digits_app; auto.
    2:{ pose proof (expo_start _ _ H2). destruct ex; simpl; auto. destruct H3; subst; reflexivity. }
    rewrite (scan_exp_numeral _ _ _ H2 R). rewrite decval_digits.
    destruct (d1 ++ d2); [congruence|]. auto.
Qed.

Lemma numeral_start s m e : numeral s m e -> exists c r, s = c :: r /\
  (is_digit c = true \/ c = ".").
Proof.
  inversion 1; subst.
  - destruct d; [congruence|]. inversion H0; subst. simpl. eauto.
  - destruct d1; simpl; eauto. inversion H0; subst. eauto.
Qed.

Lemma numeral_chars s m e c : numeral s m e -> In c s ->
  is_digit c = true \/ c = "." \/ c = "e" \/ c = "E" \/ c = "+" \/ c = "-".
Proof.
  assert (D : forall d, digits d -> In c d -> is_digit c = true).
  { intros d F I. unfold digits in F. rewrite Forall_forall in F. auto. }
  assert (XE : forall ex x, expo ex x -> In c ex ->
     is_digit c = true \/ c = "." \/ c = "e" \/ c = "E" \/ c = "+" \/ c = "-").
  { intros ex x X I. inversion X; subst; simpl in I; try tauto.
    - destruct I as [<-|I]; eauto. tauto.
    - destruct I as [<-|[<-|I]]; eauto; tauto.
    - destruct I as [<-|[<-|I]]; eauto; tauto. }
  inversion 1; subst; intros I; apply in_app_or in I.
  - destruct I; eauto.
  - destruct I as [I|[<-|I]]; eauto. apply in_app_or in I. destruct I; eauto.
Qed.

Section Gram.
Context {T : Type} (N : numops T) (builtins : list (builtin T)).
Notation getnum := (getnum N builtins).
Notation cloop := (compute_loop N builtins).

Inductive xfac (s : pstate T) : text -> T -> list T -> Prop :=
| x_num w l m e v w' : blank w -> blank w' -> numeral l m e -> n_lit N m e = Some v ->
    xfac s (w ++ l ++ w') v []
| x_stk w k v d w' : blank w -> blank w' -> (k <= imax)%nat ->
    stack_get s (Z.of_nat k) = Ok (v, d) -> xfac s (w ++ stackvar k ++ w') v d
| x_neg w l v d d' : blank w -> xfac s l v d -> dmap s (n_opp N) d = Ok d' ->
    xfac s (w ++ "-" :: l) (n_opp N v) d'
| x_pos w l v d : blank w -> xfac s l v d -> xfac s (w ++ "+" :: l) v d
| x_cstk w f k b v d d' w' : blank w -> blank w' -> fname f -> (k <= imax)%nat ->
    find_builtin builtins f = Some b -> stack_get s (Z.of_nat k) = Ok (v, d) ->
    dmap s (n_mul N (bder b v)) d = Ok d' -> xfac s (w ++ f ++ stackvar k ++ w') (bfun b v) d'
| x_brk w l v d w' : blank w -> blank w' -> xexp s l v d -> xfac s (w ++ "(" :: l ++ ")" :: w') v d
| x_call w f l b v d d' w' : blank w -> blank w' -> fname f -> find_builtin builtins f = Some b ->
    xexp s l v d -> dmap s (n_mul N (bder b v)) d = Ok d' ->
    xfac s (w ++ f ++ "(" :: l ++ ")" :: w') (bfun b v) d'
with xterm (s : pstate T) : text -> T -> list T -> Prop :=
| x_fac l v d : xfac s l v d -> xterm s l v d
| x_mul l1 v1 d1 c l2 v2 d2 v d : xterm s l1 v1 d1 -> c = "*" \/ c = "/" -> xfac s l2 v2 d2 ->
    binop N s c v1 d1 v2 d2 = Ok (v, d) -> xterm s (l1 ++ c :: l2) v d
with xexp (s : pstate T) : text -> T -> list T -> Prop :=
| x_term l v d : xterm s l v d -> xexp s l v d
| x_add l1 v1 d1 c l2 v2 d2 v d : xexp s l1 v1 d1 -> c = "+" \/ c = "-" -> xterm s l2 v2 d2 ->
    binop N s c v1 d1 v2 d2 = Ok (v, d) -> xexp s (l1 ++ c :: l2) v d.

Scheme xfac_mut := Induction for xfac Sort Prop
  with xterm_mut := Induction for xterm Sort Prop
  with xexp_mut := Induction for xexp Sort Prop.
Combined Scheme x_mutind from xfac_mut, xterm_mut, xexp_mut.

Definition ext (s s' : pstate T) : Prop :=
  deriv s' = deriv s /\ nused s' = nused s /\
  forall i x, stack_get s i = Ok x -> stack_get s' i = Ok x.

Lemma ext_refl s : ext s s.
Proof. repeat split; auto. Qed.
Lemma ext_trans a b c : ext a b -> ext b c -> ext a c.
Proof. intros (A & B & C) (D & E & F). repeat split; try congruence; auto. Qed.

Lemma ext_dmap s s' f d : ext s s' -> dmap s' f d = dmap s f d.
Proof. intros (A & B & C). unfold dmap. rewrite B. auto. Qed.
Lemma ext_binop s s' c v1 d1 v2 d2 : ext s s' -> binop N s' c v1 d1 v2 d2 = binop N s c v1 d1 v2 d2.
Proof. intros (A & B & C). unfold binop, dacc, dzero. rewrite A, B. auto. Qed.

Lemma ext_x s s' : ext s s' ->
  (forall l v d, xfac s l v d -> xfac s' l v d) /\
  (forall l v d, xterm s l v d -> xterm s' l v d) /\
  (forall l v d, xexp s l v d -> xexp s' l v d).
Proof.
  intros E. destruct E as (E1 & E2 & E3) eqn:EE. clear EE.
  apply x_mutind; intros.
  - eapply x_num; eauto.
  - eapply x_stk; eauto.
  - eapply x_neg; eauto. rewrite (ext_dmap _ _ _ _ E); auto.
  - eapply x_pos; eauto.
  - eapply x_cstk; eauto. rewrite (ext_dmap _ _ _ _ E); auto.
  - eapply x_brk; eauto.
  - eapply x_call; eauto. rewrite (ext_dmap _ _ _ _ E); auto.
  - eapply x_fac; eauto.
  - eapply x_mul; eauto. rewrite (ext_binop _ _ _ _ _ _ _ E); auto.
  - eapply x_term; eauto.
  - eapply x_add; eauto. rewrite (ext_binop _ _ _ _ _ _ _ E); auto.
Qed.

(** stack discipline *)
Lemma ext_push (s : pstate T) v d : sinv s -> ext s (push s v d).
Proof.
  intros I. repeat split; auto. intros i x. unfold stack_get, push. cbn [vst dst deriv nused].
  destruct (i <? 0)%Z; auto.
  destruct (nth_error (vst s) (Z.to_nat i)) eqn:E; [|discriminate].
  assert (Z.to_nat i < List.length (vst s))%nat as L by (apply nth_error_Some; congruence).
  rewrite nth_error_app1 by auto. rewrite E. destruct (deriv s) eqn:D; auto.
  destruct (I D) as [A B]. destruct (nth_error (dst s) _) eqn:E2; [|discriminate].
  rewrite nth_error_app1 by lia. rewrite E2. auto.
Qed.

Lemma get_push (s : pstate T) v d : sinv s -> (deriv s = false -> d = []) ->
  stack_get (push s v d) (Z.of_nat (List.length (vst s))) = Ok (v, d).
Proof.
  intros I V. unfold stack_get, push. cbn [vst dst deriv].
  destruct (Z.ltb_spec (Z.of_nat (List.length (vst s))) 0); [lia|]. rewrite Nat2Z.id.
  rewrite nth_error_app2, Nat.sub_diag by auto. simpl. destruct (deriv s) eqn:D.
  - destruct (I D) as [A B]. rewrite nth_error_app2 by lia. rewrite A, Nat.sub_diag. auto.
  - rewrite V; auto.
Qed.

Lemma stack_get_noderiv (s : pstate T) i v d : deriv s = false -> stack_get s i = Ok (v, d) -> d = [].
Proof.
  intros D. unfold stack_get. destruct (_ <? _)%Z; [discriminate|].
  destruct (nth_error _ _); [|discriminate]. rewrite D. inversion 1; auto.
Qed.

Lemma binop_nil s c v1 v2 v d : deriv s = false -> binop N s c v1 [] v2 [] = Ok (v, d) -> d = [].
Proof. intros D. unfold binop. rewrite D. simpl. inversion 1; auto. Qed.

Lemma x_noderiv s : deriv s = false ->
  (forall l v d, xfac s l v d -> d = []) /\
  (forall l v d, xterm s l v d -> d = []) /\
  (forall l v d, xexp s l v d -> d = []).
Proof.
  intros D. apply x_mutind; intros; subst; auto.
  - eapply stack_get_noderiv; eauto.
  - simpl in e. inversion e; auto.
  - apply stack_get_noderiv in e0; auto. subst. simpl in e1. inversion e1; auto.
  - simpl in e0. inversion e0; auto.
  - eapply binop_nil; eauto.
  - eapply binop_nil; eauto.
Qed.

Lemma stack_get_vec (s : pstate T) i v d : sinv s -> stack_get s i = Ok (v, d) -> vec_ok (nused s) d.
Proof.
  intros I. unfold stack_get. destruct (_ <? _)%Z; [discriminate|].
  destruct (nth_error _ _); [|discriminate]. destruct (deriv s) eqn:D.
  - destruct (nth_error (dst s) _) eqn:E; inversion 1; subst.
    destruct (I D) as [A B]. rewrite Forall_forall in B. apply B. eapply nth_error_In; eauto.
  - inversion 1; left; auto.
Qed.

Lemma dmap_vec (s : pstate T) f d d' : vec_ok (nused s) d -> dmap s f d = Ok d' -> vec_ok (nused s) d'.
Proof.
  intros V H. destruct (dmap_safe s f d V) as (x & A & B & C). rewrite A in H. inversion H; subst; auto.
Qed.

Lemma binop_vec s c v1 d1 v2 d2 v d : vec_ok (nused s) d1 -> vec_ok (nused s) d2 ->
  binop N s c v1 d1 v2 d2 = Ok (v, d) -> vec_ok (nused s) d.
Proof.
  intros V1 V2 H. destruct (binop_safe N s c v1 d1 v2 d2 V1 V2) as (x & y & A & B).
  rewrite A in H. inversion H; subst; auto.
Qed.

Lemma x_vec s : sinv s ->
  (forall l v d, xfac s l v d -> vec_ok (nused s) d) /\
  (forall l v d, xterm s l v d -> vec_ok (nused s) d) /\
  (forall l v d, xexp s l v d -> vec_ok (nused s) d).
Proof.
  intros D. apply x_mutind; intros; auto; eauto using dmap_vec, binop_vec, stack_get_vec.
  left; auto.
Qed.

(** * reading one factor *)

Definition nopar (l : text) : Prop := ~ In "(" l /\ ~ In ")" l.

Lemma nopar_app a b : nopar (a ++ b) <-> nopar a /\ nopar b.
Proof. unfold nopar. rewrite !in_app_iff. tauto. Qed.

Lemma getnum_blank s w l : blank w -> getnum s (w ++ l) = getnum s l.
Proof. induction 1; auto. cbn [app ParserModel.getnum]. rewrite H. auto. Qed.

Lemma lower_char c : is_lower c = true -> is_space c = false /\ Ascii.eqb c "-" = false /\
  Ascii.eqb c "+" = false /\ c <> "#" /\ c <> "@" /\ c <> "(" /\ c <> ")" /\ is_op c = false /\ is_digit c = false.
Proof.
  intros H. unfold is_lower in H. apply andb_prop in H as [A B]. apply Nat.leb_le in A, B.
  assert (forall x, nat_of_ascii x < 97 -> c <> x)%nat as K by (intros x L E; subst; lia).
  assert (forall x, nat_of_ascii x < 97 -> Ascii.eqb c x = false)%nat as K2.
  { intros x L. destruct (Ascii.eqb_spec c x); auto. exfalso. eapply K; eauto. }
  assert (P : forall x, Nat.ltb (nat_of_ascii x) 97 = true -> (nat_of_ascii x < 97)%nat).
  { intros x; apply Nat.ltb_lt. }
  repeat split; try (apply K2; apply P; reflexivity); try (apply K; apply P; reflexivity).
  - unfold is_space. apply orb_false_intro. apply Nat.eqb_neq; lia. apply andb_false_iff. right. apply Nat.leb_gt; lia.
  - unfold is_op. rewrite !K2 by (apply P; reflexivity). auto.
  - unfold is_digit. apply andb_false_iff. right. apply Nat.leb_gt. lia.
Qed.

Lemma letter_lower c : In c (chars "abcdefghijklmnopqrstuvwxyz") -> is_lower c = true.
Proof. intros I. repeat (destruct I as [<-|I]; [reflexivity|]). destruct I. Qed.
Lemma fname_lower f : fname f -> f <> [] /\ Forall (fun c => is_lower c = true) f.
Proof. intros [NE F]. split; auto. eapply Forall_impl; [|exact F]. exact letter_lower. Qed.
Lemma fname_notin f c : fname f -> is_lower c = false -> ~ In c f.
Proof. intros [_ F]%fname_lower H I. rewrite Forall_forall in F. apply F in I. congruence. Qed.

Lemma scan_stackvar k r : (k <= imax)%nat -> nds r ->
  exists d, stackvar k = "#" :: d /\ scan_int (d ++ r) = Some (Z.of_nat k, r).
Proof.
  intros L R. destruct (stackvar_spec k) as (d & E & Hn & F & V). exists d. split; auto.
  rewrite scan_int_digits by auto. rewrite V. pose proof imax_Z.
  destruct (Z.leb_spec (Z.of_nat k) 2147483647); auto. lia.
Qed.

Lemma getnum_flat s l v d : xfac s l v d -> nopar l ->
  forall rest, delim rest -> exists w, blank w /\ getnum s (l ++ rest) = Ok (v, d, w ++ rest).
Proof.
  induction 1; intros NP rest R.
  - exists w'. split; auto. rewrite <- !app_assoc. rewrite getnum_blank by auto.
    destruct (numeral_start _ _ _ H1) as (c & r & E & C).
    assert (SF : scan_float (l ++ w' ++ rest) = Some (m, e, w' ++ rest)).
    { apply scan_numeral; auto. apply blank_delim_start; auto. }
    rewrite E in *. cbn [app ParserModel.getnum].
    assert (is_space c = false /\ Ascii.eqb c "-" = false /\ Ascii.eqb c "+" = false /\
            is_lower c = false /\ Ascii.eqb c "#" = false) as (A1 & A2 & A3 & A4 & A5).
    { destruct C as [C|C]; [|subst; repeat split; reflexivity].
      repeat split; try (apply digit_neq; auto; reflexivity). apply digit_not_space; auto.
      unfold is_digit in C. unfold is_lower. apply andb_prop in C as [C1 C2]. apply Nat.leb_le in C1, C2.
      apply andb_false_iff. left. apply Nat.leb_gt. lia. }
    rewrite A1, A2, A3. unfold ParserModel.getnum_base. rewrite A4, A5.
    cbn [app] in SF. rewrite SF, H2. auto.
  - exists w'. split; auto. rewrite <- !app_assoc. rewrite getnum_blank by auto.
    destruct (scan_stackvar k (w' ++ rest) H1) as (x & E & S). apply nds_blank; auto.
    rewrite E. cbn [app ParserModel.getnum].
    change (is_space "#") with false. cbn iota.
    change (Ascii.eqb "#" "-") with false. change (Ascii.eqb "#" "+") with false. cbn iota.
    unfold ParserModel.getnum_base. change (is_lower "#") with false. rewrite Ascii.eqb_refl. cbn iota.
    rewrite S, H2. auto.
  - apply nopar_app in NP as [_ NP]. change ("-" :: l) with (["-"] ++ l) in NP. apply nopar_app in NP as [_ NP].
    destruct (IHxfac NP rest R) as (w1 & B1 & G). exists w1. split; auto.
    rewrite <- app_assoc. rewrite getnum_blank by auto. cbn [app ParserModel.getnum].
    change (is_space "-") with false. rewrite Ascii.eqb_refl. cbn iota. rewrite G. simpl.
    rewrite H1. auto.
  - apply nopar_app in NP as [_ NP]. change ("+" :: l) with (["+"] ++ l) in NP. apply nopar_app in NP as [_ NP].
    destruct (IHxfac NP rest R) as (w1 & B1 & G). exists w1. split; auto.
    rewrite <- app_assoc. rewrite getnum_blank by auto. cbn [app ParserModel.getnum].
    change (is_space "+") with false. change (Ascii.eqb "+" "-") with false. rewrite Ascii.eqb_refl. auto.
  - exists w'. split; auto. rewrite <- !app_assoc. rewrite getnum_blank by auto.
    destruct (scan_stackvar k (w' ++ rest) H2) as (x & E & S). apply nds_blank; auto.
    assert (SA : split_at "#" (f ++ "#" :: x ++ w' ++ rest) = Some (f, x ++ w' ++ rest)).
    { apply split_at_app. apply fname_notin; auto. }
    rewrite E. destruct (fname_lower _ H1) as [Hf Ff]. destruct f as [|c f]; [congruence|].
    inversion Ff as [|? ? LC LF]; subst. destruct (lower_char c LC) as (A1 & A2 & A3 & A4 & _).
    cbn [app ParserModel.getnum]. rewrite A1, A2, A3. unfold ParserModel.getnum_base. rewrite LC.
    cbn [app] in SA. rewrite SA, H3, S, H4. simpl. rewrite H5. auto.
  - exfalso. destruct NP as [NP _]. apply NP. apply in_or_app; right; left; auto.
  - exfalso. destruct NP as [NP _]. apply NP. rewrite !in_app_iff. right; right; left; auto.
Qed.

Lemma blank_notin w c : blank w -> is_space c = false -> ~ In c w.
Proof. intros B H I. unfold blank in B. rewrite Forall_forall in B. apply B in I. congruence. Qed.

Lemma countp_zero P l : (forall c, In c l -> P c = false) -> countp P l = 0%nat.
Proof. induction l; simpl; auto; intros H. rewrite (H a) by auto. rewrite IHl; auto. Qed.

Lemma space_not_op c : is_space c = true -> is_op c = false.
Proof. intros. destruct (is_op c) eqn:E; auto. apply op_not_space in E. congruence. Qed.

Lemma countp_op_blank w : blank w -> countp is_op w = 0%nat.
Proof.
  intros B. apply countp_zero. intros c I. unfold blank in B. rewrite Forall_forall in B.
  apply space_not_op; auto.
Qed.

Lemma countp_op_stackvar k : countp is_op (stackvar k) = 0%nat.
Proof. apply countp_stackvar. reflexivity. apply digit_not_op. Qed.

Lemma nopar_stackvar k : nopar (stackvar k).
Proof. split; apply stackvar_notin; try discriminate; reflexivity. Qed.
Lemma nopar_blank w : blank w -> nopar w.
Proof. intros; split; eapply blank_notin; eauto. Qed.

Lemma is_pm_md c : c = "*" \/ c = "/" -> is_op c = true /\ is_pm c = false.
Proof. intros [|]; subst; auto. Qed.
Lemma is_pm_pm c : c = "+" \/ c = "-" -> is_op c = true /\ is_pm c = true.
Proof. intros [|]; subst; auto. Qed.

Definition ops := countp is_op.
Definition vlen (s : pstate T) : nat := List.length (vst s).

(** one reduction of the loop *)
Lemma step_reduce (p2 : bool) s pre f1 v1 d1 c f2 v2 d2 v d rest fuel :
  xfac s f1 v1 d1 -> nopar f1 -> xfac s f2 v2 d2 -> nopar f2 ->
  is_op c = true -> negb p2 && is_pm c = false -> binop N s c v1 d1 v2 d2 = Ok (v, d) ->
  delim rest ->
  exists w, blank w /\
  cloop (S fuel) p2 s pre (f1 ++ c :: f2 ++ rest) =
  cloop fuel p2 (push s v d) pre (stackvar (vlen s) ++ w ++ rest).
Proof.
  intros X1 P1 X2 P2 O M B R.
  destruct (getnum_flat _ _ _ _ X1 P1 (c :: f2 ++ rest) O) as (w1 & B1 & G1).
  destruct (getnum_flat _ _ _ _ X2 P2 rest R) as (w2 & B2 & G2).
  exists w2. split; auto. cbn [compute_loop]. rewrite G1. cbn [obind].
  rewrite skipws_blank by auto. cbn [skipws]. rewrite (op_not_space _ O), O. cbn [negb].
  rewrite M, G2. cbn [obind]. rewrite B. cbn [obind]. reflexivity.
Qed.

Lemma pushed_fac s v d w : sinv s -> (deriv s = false -> d = []) -> (vlen s <= imax)%nat -> blank w ->
  xfac (push s v d) (stackvar (vlen s) ++ w) v d.
Proof.
  intros. apply (x_stk (push s v d) [] (vlen s) v d w); auto. constructor.
  apply get_push; auto.
Qed.

Lemma pass1_term s l v d : xterm s l v d -> nopar l -> sinv s -> (vlen s + ops l <= imax)%nat ->
  forall pre post, delim post ->
  exists n s' l', ext s s' /\ sinv s' /\ xfac s' l' v d /\ nopar l' /\
    (vlen s' + ops l' <= vlen s + ops l)%nat /\
    forall fuel, cloop (n + fuel) false s pre (l ++ post) = cloop fuel false s' pre (l' ++ post).
Proof.
  induction 1; intros NP I L pre post P.
  - exists 0%nat, s, l. split. apply ext_refl. auto.
  - apply nopar_app in NP as [NP1 NP2]. change (c :: l2) with ([c] ++ l2) in NP2. apply nopar_app in NP2 as [_ NP2].
    destruct (is_pm_md c H0) as [Oc Mc].
    unfold ops in *. rewrite countp_app in L |- *. cbn [countp] in L |- *. rewrite Oc in L |- *.
    destruct (IHxterm NP1 I ltac:(lia) pre (c :: l2 ++ post) Oc)
      as (n & s1 & l1' & E1 & I1 & X1 & P1 & L1 & G).
    destruct (ext_x s s1 E1) as (XF & XT & XE).
    rewrite <- (ext_binop _ _ _ _ _ _ _ E1) in H2.
    assert (V : vec_ok (nused s1) d /\ (deriv s1 = false -> d = [])).
    { destruct (x_vec s1 I1) as (VF & _ & _). split.
      eapply binop_vec; [eapply VF, X1|eapply VF, XF, H1|eauto].
      intros D. destruct (x_noderiv s1 D) as (NF & _ & _). assert (d1 = []) by (eapply NF, X1).
      assert (d2 = []) by (eapply NF, XF, H1). subst. eapply binop_nil; eauto. }
    destruct V as [V1 V2].
    assert (forall fuel, exists w, blank w /\
       cloop (S fuel) false s1 pre (l1' ++ c :: l2 ++ post) =
       cloop fuel false (push s1 v d) pre (stackvar (vlen s1) ++ w ++ post)) as SR.
    { intros. eapply step_reduce; eauto. }
    (* the blanks do not depend on the fuel *)
    destruct (getnum_flat _ _ _ _ (XF _ _ _ H1) NP2 post P) as (w & Bw & Gw).
    exists (n + 1)%nat, (push s1 v d), (stackvar (vlen s1) ++ w).
    assert (vlen s1 <= imax)%nat by lia.
    split. { eapply ext_trans; eauto. apply ext_push; auto. }
    split. { apply sinv_push; auto. }
    split. { apply pushed_fac; auto. }
    split. { apply nopar_app; split. apply nopar_stackvar. apply nopar_blank; auto. }
    split. { unfold vlen at 1. unfold push; cbn [vst]. rewrite app_length, countp_app, countp_op_stackvar, countp_op_blank by auto.
             unfold vlen in *. simpl. lia. }
    intros fuel. rewrite <- !app_assoc. cbn [app]. rewrite <- Nat.add_assoc. rewrite (G (1 + fuel)%nat).
    destruct (getnum_flat _ _ _ _ X1 P1 (c :: l2 ++ post) Oc) as (w1 & B1 & G1).
    cbn [Nat.add compute_loop]. rewrite G1. cbn [obind].
    rewrite skipws_blank by auto. cbn [skipws]. rewrite (op_not_space _ Oc), Oc. cbn [negb andb].
    rewrite Mc, Gw. cbn [obind]. rewrite H2. cbn [obind]. reflexivity.
Qed.

(** a bracket-free sum of factors *)
Inductive chain (s : pstate T) : text -> T -> list T -> Prop :=
| ch_one l v d : xfac s l v d -> nopar l -> chain s l v d
| ch_add l1 v1 d1 c l2 v2 d2 v d : chain s l1 v1 d1 -> c = "+" \/ c = "-" -> xfac s l2 v2 d2 -> nopar l2 ->
    binop N s c v1 d1 v2 d2 = Ok (v, d) -> chain s (l1 ++ c :: l2) v d.

Lemma ext_chain s s' l v d : ext s s' -> chain s l v d -> chain s' l v d.
Proof.
  intros E. destruct (ext_x s s' E) as (A & B & C). induction 1.
  - constructor; auto.
  - apply (ch_add s' l1 v1 d1 c l2 v2 d2); auto. rewrite (ext_binop s s' _ _ _ _ _ E). auto.
Qed.

Lemma pass1_exp s l v d : xexp s l v d -> nopar l -> sinv s -> (vlen s + ops l <= imax)%nat ->
  forall pre post, delim post ->
  exists n s' p f v' d', ext s s' /\ sinv s' /\ chain s' (p ++ f) v d /\ xfac s' f v' d' /\ nopar f /\
    (vlen s' + ops (p ++ f) <= vlen s + ops l)%nat /\
    forall fuel, cloop (n + fuel) false s pre (l ++ post) = cloop fuel false s' (pre ++ p) (f ++ post).
Proof.
  induction 1; intros NP I L pre post P.
  - destruct (pass1_term _ _ _ _ H NP I L pre post P) as (n & s' & l' & A1 & A2 & A3 & A4 & A5 & A6).
    exists n, s', [], l', v, d. repeat (split; auto). constructor; auto.
    intros. rewrite app_nil_r. auto.
  - apply nopar_app in NP as [NP1 NP2]. change (c :: l2) with ([c] ++ l2) in NP2. apply nopar_app in NP2 as [_ NP2].
    destruct (is_pm_pm c H0) as [Oc Mc].
    unfold ops in *. rewrite countp_app in L |- *. cbn [countp] in L |- *. rewrite Oc in L |- *.
    destruct (IHxexp NP1 I ltac:(lia) pre (c :: l2 ++ post) Oc)
      as (n & s1 & p1 & f1 & v1' & d1' & E1 & I1 & C1 & X1 & P1 & L1 & G).
    destruct (ext_x s s1 E1) as (XF & XT & XE).
    rewrite countp_app in L1.
    destruct (pass1_term s1 l2 v2 d2 (XT _ _ _ H1) NP2 I1 ltac:(unfold ops; lia) (pre ++ p1 ++ f1 ++ [c]) post P)
      as (n2 & s2 & l2' & E2 & I2 & X2 & P2 & L2 & G2).
    exists (n + (1 + n2))%nat, s2, (p1 ++ f1 ++ [c]), l2', v2, d2.
    split. { eapply ext_trans; eauto. }
    split; auto.
    split. { replace ((p1 ++ f1 ++ [c]) ++ l2') with ((p1 ++ f1) ++ c :: l2') by (rewrite <- !app_assoc; auto).
             apply (ch_add s2 (p1 ++ f1) v1 d1 c l2' v2 d2); auto. eapply ext_chain; eauto.
             rewrite (ext_binop _ _ _ _ _ _ _ (ext_trans _ _ _ E1 E2)). auto. }
    split; auto. split; auto.
    split. { unfold ops in L2. rewrite !countp_app. cbn [countp]. rewrite Oc. lia. }
    intros fuel. rewrite <- (app_assoc l1). cbn [app]. rewrite <- Nat.add_assoc. rewrite (G (1 + n2 + fuel)%nat).
    destruct (getnum_flat _ _ _ _ X1 P1 (c :: l2 ++ post) Oc) as (w1 & B1 & G1).
    cbn [Nat.add compute_loop]. rewrite G1. cbn [obind].
    rewrite skipws_blank by auto. cbn [skipws]. rewrite (op_not_space _ Oc), Oc. cbn [negb andb].
    rewrite Mc. rewrite firstn_consumed. rewrite <- app_assoc. apply G2.
Qed.

Lemma pass2_chain s l v d : chain s l v d -> sinv s -> (vlen s + ops l <= imax)%nat ->
  forall post, delim post ->
  exists n s' f, ext s s' /\ sinv s' /\ xfac s' f v d /\ nopar f /\
    (vlen s' + ops f <= vlen s + ops l)%nat /\
    forall fuel, cloop (n + fuel) true s [] (l ++ post) = cloop fuel true s' [] (f ++ post).
Proof.
  induction 1; intros I L post P.
  - exists 0%nat, s, l. split. apply ext_refl. auto.
  - rename H2 into NP2. rename H3 into H2.
    destruct (is_pm_pm c H0) as [Oc Mc].
    unfold ops in *. rewrite countp_app in L |- *. cbn [countp] in L |- *. rewrite Oc in L |- *.
    destruct (IHchain I ltac:(lia) (c :: l2 ++ post) Oc)
      as (n & s1 & l1' & E1 & I1 & X1 & P1 & L1 & G).
    destruct (ext_x s s1 E1) as (XF & XT & XE).
    rewrite <- (ext_binop _ _ _ _ _ _ _ E1) in H2.
    assert (V : vec_ok (nused s1) d /\ (deriv s1 = false -> d = [])).
    { destruct (x_vec s1 I1) as (VF & _ & _). split.
      eapply binop_vec; [eapply VF, X1|eapply VF, XF, H1|eauto].
      intros D. destruct (x_noderiv s1 D) as (NF & _ & _). assert (d1 = []) by (eapply NF, X1).
      assert (d2 = []) by (eapply NF, XF, H1). subst. eapply binop_nil; eauto. }
    destruct V as [V1 V2].
    destruct (getnum_flat _ _ _ _ (XF _ _ _ H1) NP2 post P) as (w & Bw & Gw).
    exists (n + 1)%nat, (push s1 v d), (stackvar (vlen s1) ++ w).
    assert (vlen s1 <= imax)%nat by lia.
    split. { eapply ext_trans; eauto. apply ext_push; auto. }
    split. { apply sinv_push; auto. }
    split. { apply pushed_fac; auto. }
    split. { apply nopar_app; split. apply nopar_stackvar. apply nopar_blank; auto. }
    split. { unfold vlen at 1. unfold push; cbn [vst]. rewrite app_length, countp_app, countp_op_stackvar, countp_op_blank by auto.
             unfold vlen in *. simpl. lia. }
    intros fuel. rewrite <- !app_assoc. cbn [app]. rewrite <- Nat.add_assoc. rewrite (G (1 + fuel)%nat).
    destruct (getnum_flat _ _ _ _ X1 P1 (c :: l2 ++ post) Oc) as (w1 & B1 & G1).
    cbn [Nat.add compute_loop]. rewrite G1. cbn [obind].
    rewrite skipws_blank by auto. cbn [skipws]. rewrite (op_not_space _ Oc), Oc. cbn [negb andb].
    rewrite Gw. cbn [obind]. rewrite H2. cbn [obind]. reflexivity.
Qed.

Lemma cloop_mono f : forall p2 s pre suf k, cloop f p2 s pre suf <> NoFuel ->
  cloop (f + k) p2 s pre suf = cloop f p2 s pre suf.
Proof.
  induction f as [|f IH]; intros p2 s pre suf k H. { exfalso; apply H; reflexivity. }
  cbn [Nat.add compute_loop] in *.
  destruct (getnum s suf) as [[[v1 d1] r1]| | |]; cbn [obind] in *; auto.
  destruct (skipws r1) as [|op r2].
  - destruct p2; auto.
  - destruct (negb (is_op op)); auto. destruct (negb p2 && is_pm op); auto.
    destruct (getnum s r2) as [[[v2 d2] r3]| | |]; cbn [obind] in *; auto.
    destruct (binop N s op v1 d1 v2 d2) as [[v d]| | |]; cbn [obind] in *; auto.
Qed.

Lemma compute_flat s l v d : xexp s l v d -> nopar l -> sinv s -> (vlen s + ops l <= imax)%nat ->
  exists s', compute N builtins s l = Ok (v, d, s') /\ ext s s' /\ sinv s' /\
             (vlen s' <= vlen s + ops l)%nat.
Proof.
  intros X NP I L.
  destruct (pass1_exp s l v d X NP I L [] [] Logic.I)
    as (n & s1 & p & f & v' & d' & E1 & I1 & C1 & X1 & P1 & L1 & G1).
  destruct (pass2_chain s1 (p ++ f) v d C1 I1 ltac:(lia) [] Logic.I)
    as (n2 & s2 & f2 & E2 & I2 & X2 & P2 & L2 & G2).
  exists s2. cbn [app] in *.
  set (F := (2 * List.length l + 3)%nat).
  assert (R : cloop (n + (1 + (n2 + (1 + F)))) false s [] l = Ok (v, d, s2)).
  { specialize (G1 (1 + (n2 + (1 + F)))%nat). rewrite !app_nil_r in G1. rewrite G1.
    destruct (getnum_flat _ _ _ _ X1 P1 [] Logic.I) as (w1 & B1 & GN1). rewrite !app_nil_r in GN1.
    change (1 + (n2 + (1 + F)))%nat with (S (n2 + (1 + F))). cbn [compute_loop]. rewrite GN1. cbn [obind].
    rewrite <- (app_nil_r w1), skipws_blank by auto. cbn [skipws].
    specialize (G2 (1 + F)%nat). rewrite !app_nil_r in G2. rewrite G2.
    destruct (getnum_flat _ _ _ _ X2 P2 [] Logic.I) as (w2 & B2 & GN2). rewrite !app_nil_r in GN2.
    change (1 + F)%nat with (S F). cbn [compute_loop]. rewrite GN2. cbn [obind].
    rewrite <- (app_nil_r w2), skipws_blank by auto. cbn [skipws].
    destruct (deriv s2) eqn:D; auto. destruct (x_noderiv s2 D) as (ND & _).
    rewrite (ND _ _ _ X2). auto. }
  split.
  - unfold compute. fold F. rewrite <- R.
    replace (n + (1 + (n2 + (1 + F))))%nat with (F + (n + (1 + (n2 + 1))))%nat by lia.
    symmetry. apply cloop_mono. apply (compute_nofuel N builtins s l).
  - split. eapply ext_trans; eauto. split; auto. lia.
Qed.

(** * brackets *)

Ltac asc := repeat (rewrite <- app_assoc || (progress simpl app)); auto.

Lemma fname_ops f : fname f -> countp is_op f = 0%nat.
Proof.
  intros [_ F]%fname_lower. apply countp_zero. intros c I. rewrite Forall_forall in F. apply F in I.
  apply lower_char in I. tauto.
Qed.

Lemma x_balanced s :
  (forall l v d, xfac s l v d -> ~ In ")" l -> ~ In "(" l) /\
  (forall l v d, xterm s l v d -> ~ In ")" l -> ~ In "(" l) /\
  (forall l v d, xexp s l v d -> ~ In ")" l -> ~ In "(" l).
Proof.
  assert (BL : forall w, blank w -> ~ In "(" w) by (intros; apply blank_notin; auto).
  assert (SV : forall k, ~ In "(" (stackvar k)) by (intros; apply nopar_stackvar).
  apply x_mutind; intros; rewrite ?in_app_iff in *; cbn [In] in *; rewrite ?in_app_iff in *;
    cbn [In] in *; try tauto.
  - pose proof (BL w b). pose proof (BL w' b0).
    assert (~ In "(" l). { intros K. pose proof (numeral_chars _ _ _ _ n K). intuition discriminate. }
    tauto.
  - pose proof (BL w b). pose proof (BL w' b0). pose proof (SV k). tauto.
  - pose proof (BL w b). intuition discriminate.
  - pose proof (BL w b). intuition discriminate.
  - pose proof (BL w b0). pose proof (BL w' b1). pose proof (SV k).
    assert (~ In "(" f) by (apply fname_notin; auto). tauto.
  - assert (c <> "(") by (destruct o; subst; discriminate). tauto.
  - assert (c <> "(") by (destruct o; subst; discriminate). tauto.
Qed.

Definition reducible (s : pstate T) (X : pstate T -> text -> T -> list T -> Prop) (l : text) (v : T) (d : list T) : Prop :=
  exists pre inner after v1 d1,
    l = pre ++ "(" :: inner ++ ")" :: after /\ ~ In ")" pre /\ nopar inner /\ xexp s inner v1 d1 /\
    forall s' k, ext s s' -> (k <= imax)%nat -> stack_get s' (Z.of_nat k) = Ok (v1, d1) ->
      X s' (pre ++ stackvar k ++ after) v d.

Lemma x_reduce s :
  (forall l v d, xfac s l v d -> In ")" l -> reducible s xfac l v d) /\
  (forall l v d, xterm s l v d -> In ")" l -> reducible s xterm l v d) /\
  (forall l v d, xexp s l v d -> In ")" l -> reducible s xexp l v d).
Proof.
  assert (BL : forall w, blank w -> ~ In ")" w) by (intros; apply blank_notin; auto).
  apply x_mutind; intros.
  - exfalso. rewrite !in_app_iff in H. pose proof (BL w b). pose proof (BL w' b0).
    assert (~ In ")" l). { intros K. pose proof (numeral_chars _ _ _ _ n K). intuition discriminate. }
    tauto.
  - exfalso. rewrite !in_app_iff in H. pose proof (BL w b). pose proof (BL w' b0).
    destruct (nopar_stackvar k). tauto.
  - rewrite in_app_iff in H0. cbn [In] in H0. pose proof (BL w b).
    destruct H as (pre & inner & after & v1 & d1 & A1 & A2 & A3 & A4 & A5); [intuition discriminate|].
    exists (w ++ "-" :: pre), inner, after, v1, d1. subst l.
    split. rewrite <- app_assoc; auto.
    split. { rewrite in_app_iff. cbn [In]. intuition discriminate. }
    split; auto. split; auto. intros s' k E L G. rewrite <- app_assoc. cbn [app].
    eapply x_neg; eauto. rewrite (ext_dmap _ _ _ _ E); auto.
  - rewrite in_app_iff in H0. cbn [In] in H0. pose proof (BL w b).
    destruct H as (pre & inner & after & v1 & d1 & A1 & A2 & A3 & A4 & A5); [intuition discriminate|].
    exists (w ++ "+" :: pre), inner, after, v1, d1. subst l.
    split. rewrite <- app_assoc; auto.
    split. { rewrite in_app_iff. cbn [In]. intuition discriminate. }
    split; auto. split; auto. intros s' k E L G. rewrite <- app_assoc. cbn [app].
    eapply x_pos; eauto.
  - exfalso. rewrite !in_app_iff in H. pose proof (BL w b0). pose proof (BL w' b1).
    destruct (nopar_stackvar k). assert (~ In ")" f) by (apply fname_notin; auto). tauto.
  - pose proof (BL w b). destruct (in_dec ascii_dec ")" l) as [J|J].
    + destruct (H J) as (pre & inner & after & v1 & d1 & A1 & A2 & A3 & A4 & A5).
      exists (w ++ "(" :: pre), inner, (after ++ ")" :: w'), v1, d1. subst l.
      split. { asc. }
      split. { rewrite in_app_iff. cbn [In]. intuition discriminate. }
      split; auto. split; auto. intros s' k E L G. rewrite <- app_assoc. cbn [app].
      replace (pre ++ stackvar k ++ after ++ ")" :: w') with ((pre ++ stackvar k ++ after) ++ ")" :: w')
        by (rewrite <- !app_assoc; auto).
      eapply x_brk; eauto.
    + exists w, l, w', v, d. split; auto. split; auto.
      split. split; auto. eapply (x_balanced s); eauto.
      split; auto. intros. apply x_stk; auto.
  - pose proof (BL w b0). assert (~ In ")" f) by (apply fname_notin; auto).
    destruct (in_dec ascii_dec ")" l) as [J|J].
    + destruct (H J) as (pre & inner & after & v1 & d1 & A1 & A2 & A3 & A4 & A5).
      exists (w ++ f ++ "(" :: pre), inner, (after ++ ")" :: w'), v1, d1. subst l.
      split. { asc. }
      split. { rewrite !in_app_iff. cbn [In]. intuition discriminate. }
      split; auto. split; auto. intros s' k E L G. rewrite <- !app_assoc. cbn [app].
      replace (pre ++ stackvar k ++ after ++ ")" :: w') with ((pre ++ stackvar k ++ after) ++ ")" :: w')
        by (rewrite <- !app_assoc; auto).
      eapply x_call; eauto. rewrite (ext_dmap _ _ _ _ E); auto.
    + exists (w ++ f), l, w', v, d. split. rewrite <- app_assoc; auto.
      split. rewrite in_app_iff; tauto.
      split. split; auto. eapply (x_balanced s); eauto.
      split; auto. intros. rewrite <- app_assoc. eapply x_cstk; eauto. rewrite (ext_dmap _ _ _ _ H3); auto.
  - destruct (H H0) as (pre & inner & after & v1 & d1 & A1 & A2 & A3 & A4 & A5).
    exists pre, inner, after, v1, d1. repeat (split; auto). intros. apply x_fac. auto.
  - assert (C : c <> ")") by (destruct o; subst; discriminate).
    destruct (in_dec ascii_dec ")" l1) as [J|J].
    + destruct (H J) as (pre & inner & after & v0 & d0 & A1 & A2 & A3 & A4 & A5).
      exists pre, inner, (after ++ c :: l2), v0, d0. subst l1.
      split. { asc. }
      split; auto. split; auto. split; auto. intros s' k E L G.
      replace (pre ++ stackvar k ++ after ++ c :: l2) with ((pre ++ stackvar k ++ after) ++ c :: l2)
        by (rewrite <- !app_assoc; auto).
      eapply x_mul; eauto. eapply (ext_x s s' E); eauto. rewrite (ext_binop _ _ _ _ _ _ _ E); auto.
    + rewrite in_app_iff in H1. cbn [In] in H1.
      destruct H0 as (pre & inner & after & v0 & d0 & A1 & A2 & A3 & A4 & A5); [intuition|].
      exists (l1 ++ c :: pre), inner, after, v0, d0. subst l2.
      split. rewrite <- app_assoc; auto.
      split. { rewrite in_app_iff. cbn [In]. intuition. }
      split; auto. split; auto. intros s' k E L G. rewrite <- app_assoc. cbn [app].
      eapply x_mul; eauto. eapply (ext_x s s' E); eauto. rewrite (ext_binop _ _ _ _ _ _ _ E); auto.
  - destruct (H H0) as (pre & inner & after & v1 & d1 & A1 & A2 & A3 & A4 & A5).
    exists pre, inner, after, v1, d1. repeat (split; auto). intros. apply x_term. auto.
  - assert (C : c <> ")") by (destruct o; subst; discriminate).
    destruct (in_dec ascii_dec ")" l1) as [J|J].
    + destruct (H J) as (pre & inner & after & v0 & d0 & A1 & A2 & A3 & A4 & A5).
      exists pre, inner, (after ++ c :: l2), v0, d0. subst l1.
      split. { asc. }
      split; auto. split; auto. split; auto. intros s' k E L G.
      replace (pre ++ stackvar k ++ after ++ c :: l2) with ((pre ++ stackvar k ++ after) ++ c :: l2)
        by (rewrite <- !app_assoc; auto).
      eapply x_add; eauto. eapply (ext_x s s' E); eauto. rewrite (ext_binop _ _ _ _ _ _ _ E); auto.
    + rewrite in_app_iff in H1. cbn [In] in H1.
      destruct H0 as (pre & inner & after & v0 & d0 & A1 & A2 & A3 & A4 & A5); [intuition|].
      exists (l1 ++ c :: pre), inner, after, v0, d0. subst l2.
      split. rewrite <- app_assoc; auto.
      split. { rewrite in_app_iff. cbn [In]. intuition. }
      split; auto. split; auto. intros s' k E L G. rewrite <- app_assoc. cbn [app].
      eapply x_add; eauto. eapply (ext_x s s' E); eauto. rewrite (ext_binop _ _ _ _ _ _ _ E); auto.
Qed.

Definition nclose := countp (Ascii.eqb ")").

Lemma bracket_gram fuel : forall s line v d,
  xexp s line v d -> sinv s -> (nclose line < fuel)%nat ->
  (vlen s + ops line + nclose line <= imax)%nat ->
  bracket_loop N builtins fuel s line = Ok (v, d).
Proof.
  induction fuel as [|f IH]; intros s line v d X I F L; [lia|]. cbn [bracket_loop].
  destruct (in_dec ascii_dec ")" line) as [J|J].
  - destruct (x_reduce s) as (_ & _ & XR).
    destruct (XR _ _ _ X J) as (pre & inner & after & v1 & d1 & A1 & A2 & A3 & A4 & A5).
    assert (SP : split_at ")" line = Some (pre ++ "(" :: inner, after)).
    { rewrite A1. replace (pre ++ "(" :: inner ++ ")" :: after) with ((pre ++ "(" :: inner) ++ ")" :: after)
        by (rewrite <- app_assoc; auto).
      apply split_at_app. rewrite in_app_iff. cbn [In]. destruct A3. intuition discriminate. }
    rewrite SP.
    assert (RS : rsplit_at "(" (pre ++ "(" :: inner) = Some (pre, inner)).
    { apply rsplit_at_app. apply A3. }
    destruct (pre ++ "(" :: inner) as [|c0 b0] eqn:EB. { destruct pre; discriminate. }
    rewrite RS.
    assert (LL : (ops line = ops pre + ops inner + ops after /\ nclose line = 1 + nclose pre + nclose inner + nclose after)%nat).
    { rewrite A1. unfold ops, nclose. rewrite !countp_app. cbn [countp]. rewrite !countp_app. cbn [countp].
      change (is_op "(") with false. change (is_op ")") with false.
      change (Ascii.eqb ")" "(") with false. change (Ascii.eqb ")" ")") with true. cbn iota. lia. }
    destruct LL as [L1 L2].
    destruct (compute_flat s inner v1 d1 A4 A3 I ltac:(lia)) as (s' & C & E & I' & L3).
    rewrite C. cbn [obind].
    assert (V : vec_ok (nused s') d1).
    { destruct E as (_ & E2 & _). rewrite E2. eapply (x_vec s I); eauto. }
    apply IH.
    + apply A5. eapply ext_trans; eauto. apply ext_push; auto. fold (vlen s'). lia.
      apply get_push; auto. intros D. destruct E as (E1 & _). rewrite E1 in D. eapply (x_noderiv s D); eauto.
    + apply sinv_push; auto.
    + unfold nclose in *. rewrite !countp_app. rewrite (countp_notin ")" (stackvar _)) by apply nopar_stackvar. lia.
    + unfold nclose, ops in *. rewrite !countp_app. rewrite (countp_notin ")" (stackvar _)) by apply nopar_stackvar.
      rewrite countp_op_stackvar. unfold vlen at 1. unfold push; cbn [vst]. rewrite app_length. simpl.
      unfold vlen in *. lia.
  - assert (SP : split_at ")" line = None) by (apply split_at_none; auto). rewrite SP.
    destruct (compute_flat s line v d X) as (s' & C & _); auto.
    split; auto. eapply (x_balanced s); eauto. lia.
    rewrite C. auto.
Qed.

End Gram.
