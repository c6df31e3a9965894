(** Values and derivatives of formulas: substitution of parameters and the
    main lemmas behind C06 and C07. *)
From Coq Require Import List ZArith Ascii String Bool Lia.
From Verif Require Import Base ParamModel ParamProof ParserModel ParserLex ParserSafe ParserSpec ParserGram.
Import ListNotations.
Local Open Scope char_scope.

Scheme gfac_mut := Induction for gfac Sort Prop
  with gterm_mut := Induction for gterm Sort Prop
  with gexp_mut := Induction for gexp Sort Prop.
Combined Scheme g_mutind from gfac_mut, gterm_mut, gexp_mut.

Ltac asc := repeat (rewrite <- app_assoc || (progress simpl app)); auto.

Section Proof.
Context {T : Type} (N : numops T) (builtins : list (builtin T)).
Notation xfac := (xfac N builtins).
Notation xterm := (xterm N builtins).
Notation xexp := (xexp N builtins).

(** evaluation with derivative vectors, [P] giving those of the parameters *)
Fixpoint ad (P : Z -> option (T * list T)) (s : pstate T) (e : fexp) : outcome (T * list T) :=
  match e with
  | ELit m x => match n_lit N m x with Some v => Ok (v, []) | None => Err ErrParse end
  | EPar n => match P n with Some x => Ok x | None => Err ErrConstraint end
  | ENeg a => obind (ad P s a) (fun '(v, d) =>
              omap (fun d' => (n_opp N v, d')) (dmap s (n_opp N) d))
  | EBin c a b => obind (ad P s a) (fun '(v1, d1) => obind (ad P s b) (fun '(v2, d2) =>
                  binop N s c v1 d1 v2 d2))
  | ECall f a =>
      match find_builtin builtins f with
      | None => Err ErrParse
      | Some b => obind (ad P s a) (fun '(v, d) =>
                  omap (fun d' => (bfun b v, d')) (dmap s (n_mul N (bder b v)) d))
      end
  end.

Lemma omap_ok {A B} (f : A -> B) (x : outcome A) b : omap f x = Ok b -> exists a, x = Ok a /\ b = f a.
Proof. destruct x; simpl; try discriminate. inversion 1; eauto. Qed.

(** position of a parameter on the initial stack *)
Definition slot (t : ptab T) (used : list nat) (n : Z) : option nat :=
  match parfind t n with Some k => find_used k used | None => None end.

Lemma find_used_app k u u2 i : find_used k u = Some i -> find_used k (u ++ u2) = Some i.
Proof.
  revert i; induction u; simpl; intros i H; [discriminate|].
  destruct (_ =? _)%nat; auto. destruct (find_used k u); [|discriminate].
  rewrite (IHu _ eq_refl). auto.
Qed.

Lemma find_used_new k u : find_used k u = None -> find_used k (u ++ [k]) = Some (List.length u).
Proof.
  induction u; simpl. rewrite Nat.eqb_refl; auto.
  destruct (_ =? _)%nat; [discriminate|]. destruct (find_used k u); [discriminate|].
  intros _. rewrite IHu; auto.
Qed.

Lemma slot_app t u u2 n i : slot t u n = Some i -> slot t (u ++ u2) n = Some i.
Proof. unfold slot. destruct (parfind t n); auto. apply find_used_app. Qed.

(** a state in which the parameters in [used] have the entries given by P *)
Definition provides (t : ptab T) (used : list nat) (P : Z -> option (T * list T)) (s : pstate T) : Prop :=
  forall n i x, P n = Some x -> slot t used n = Some i -> stack_get s (Z.of_nat i) = Ok x.

Lemma provides_app t u u2 P s : provides t (u ++ u2) P s -> provides t u P s.
Proof. intros H n i x A B. eapply H; eauto. apply slot_app; auto. Qed.

Definition nat_at := countp (Ascii.eqb "@").

(** state of the substitution: values are those of the table, slots are kept *)
Definition su_ok (t : ptab T) (used : list nat) (vs : list T) : Prop :=
  Forall2 (fun k v => nth_error (pval t) k = Some v) used vs.

(** result of substituting inside one phrase *)
Definition subst_res (t : ptab T) (X : pstate T -> text -> T -> list T -> Prop)
    (l : text) (e : fexp) (pre post : text) (used : list nat) (vs : list T) : Prop :=
  exists n l' u2 v2,
    (forall fuel, subst_loop (n + fuel) t (pre ++ l ++ post) used vs =
                  subst_loop fuel t (pre ++ l' ++ post) (used ++ u2) (vs ++ v2)) /\
    ~ In "@" l' /\ su_ok t (used ++ u2) (vs ++ v2) /\
    (n <= nat_at l)%nat /\ (List.length u2 <= nat_at l)%nat /\
    ops l' = ops l /\ nclose l' = nclose l /\
    (forall p, In p (pars e) -> slot t (used ++ u2) p <> None) /\
    (forall P s v d, (List.length (used ++ u2) <= imax)%nat -> provides t (used ++ u2) P s ->
       ad P s e = Ok (v, d) -> X s l' v d).

Definition post_ok (post : text) : Prop := nds post.

Lemma nds_gen w post : blank w -> nds post -> nds (w ++ post).
Proof. intros B D. destruct w; simpl; auto. inversion B; subst. apply space_not_digit; auto. Qed.

Lemma Forall2_length {A B} (R : A -> B -> Prop) l l' : Forall2 R l l' -> List.length l = List.length l'.
Proof. induction 1; simpl; auto. Qed.

Lemma subst_gram t : List.length (pid t) = List.length (pval t) ->
  (forall l e, gfac l e -> forall pre post used vs,
     (forall n, In n (pars e) -> parfind t n <> None) ->
     ~ In "@" pre -> nds post -> su_ok t used vs -> subst_res t xfac l e pre post used vs) /\
  (forall l e, gterm l e -> forall pre post used vs,
     (forall n, In n (pars e) -> parfind t n <> None) ->
     ~ In "@" pre -> nds post -> su_ok t used vs -> subst_res t xterm l e pre post used vs) /\
  (forall l e, gexp l e -> forall pre post used vs,
     (forall n, In n (pars e) -> parfind t n <> None) ->
     ~ In "@" pre -> nds post -> su_ok t used vs -> subst_res t xexp l e pre post used vs).
Proof.
  intros W.
  assert (BL : forall w c, blank w -> is_space c = false -> ~ In c w) by (intros; apply blank_notin; auto).
  assert (C0 : forall w (P : ascii -> bool), blank w -> (forall c, is_space c = true -> P c = false) -> countp P w = 0%nat).
  { intros w P B H. apply countp_zero. intros c I. unfold blank in B. rewrite Forall_forall in B. auto. }
  assert (CS : forall x, is_space x = false -> forall c, is_space c = true -> Ascii.eqb x c = false).
  { intros x Hx c Hc. destruct (Ascii.eqb_spec x c); auto. congruence. }
  (* a binary node *)
  assert (BIN : forall (Xa Xb Xc : pstate T -> text -> T -> list T -> Prop) l1 e1 c l2 e2,
     (c = "*" \/ c = "/" \/ c = "+" \/ c = "-") ->
     (forall pre post used vs, (forall n, In n (pars e1) -> parfind t n <> None) ->
        ~ In "@" pre -> nds post -> su_ok t used vs -> subst_res t Xa l1 e1 pre post used vs) ->
     (forall pre post used vs, (forall n, In n (pars e2) -> parfind t n <> None) ->
        ~ In "@" pre -> nds post -> su_ok t used vs -> subst_res t Xb l2 e2 pre post used vs) ->
     (forall s la lb v1 d1 v2 d2 v d, Xa s la v1 d1 -> Xb s lb v2 d2 -> binop N s c v1 d1 v2 d2 = Ok (v, d) ->
        Xc s (la ++ c :: lb) v d) ->
     forall pre post used vs, (forall n, In n (pars (EBin c e1 e2)) -> parfind t n <> None) ->
        ~ In "@" pre -> nds post -> su_ok t used vs -> subst_res t Xc (l1 ++ c :: l2) (EBin c e1 e2) pre post used vs).
  { intros Xa Xb Xc l1 e1 c l2 e2 C A B K pre post used vs PF NP PO SU.
    assert (Cn : c <> "@" /\ Ascii.eqb "@" c = false /\ is_digit c = false /\ Ascii.eqb ")" c = false)
      by (destruct C as [|[|[|]]]; subst; repeat split; discriminate || reflexivity).
    destruct Cn as (Cn1 & Cn2 & Cn3 & Cn4).
    destruct (A pre (c :: l2 ++ post) used vs) as (n1 & l1' & u1 & v1 & A1 & A2 & A3 & A4 & A5 & A6 & A7 & A8 & A9); auto.
    { intros; apply PF; simpl; apply in_or_app; auto. }
    destruct (B (pre ++ l1' ++ [c]) post (used ++ u1) (vs ++ v1)) as (n2 & l2' & u2 & v2 & B1 & B2 & B3 & B4 & B5 & B6 & B7 & B8 & B9); auto.
    { intros; apply PF; simpl; apply in_or_app; auto. }
    { rewrite !in_app_iff. simpl. tauto. }
    exists (n1 + n2)%nat, (l1' ++ c :: l2'), (u1 ++ u2), (v1 ++ v2).
    split. { intros fuel. rewrite <- Nat.add_assoc. rewrite <- (app_assoc l1). cbn [app]. rewrite A1.
             replace (pre ++ l1' ++ c :: l2 ++ post) with ((pre ++ l1' ++ [c]) ++ l2 ++ post) by asc.
             rewrite B1. f_equal; asc. }
    split. { rewrite in_app_iff. cbn [In]. intuition. }
    split. { rewrite !app_assoc. auto. }
    unfold nat_at, ops, nclose in *. rewrite !countp_app. cbn [countp]. rewrite Cn2, Cn4.
    split. lia. split. rewrite app_length. lia. split. lia. split. lia.
    split. { intros p I. simpl in I. apply in_app_or in I. rewrite app_assoc. destruct I as [I|I]; auto.
             specialize (A8 p I). destruct (slot t (used ++ u1) p) eqn:E; [|tauto]. erewrite slot_app; eauto; discriminate. }
    intros P s v d L PR AD. simpl in AD.
    apply obind_ok in AD as ([va da] & AD1 & AD). apply obind_ok in AD as ([vb db] & AD2 & AD).
    rewrite app_assoc in PR, L.
    eapply K; [| |exact AD].
    - eapply A9; eauto. rewrite !app_length in *. lia. eapply provides_app; eauto.
    - eapply B9; eauto. }
  apply g_mutind.
  - (* number *)
    intros w s m e w' Bw Bw' Nu pre post used vs PF NP PO SU.
    assert (NA : forall c, ~ (is_digit c = true \/ c = "." \/ c = "e" \/ c = "E" \/ c = "+" \/ c = "-") -> ~ In c s).
    { intros c H I. apply H. eapply numeral_chars; eauto. }
    exists 0%nat, (w ++ s ++ w'), [], []. rewrite !app_nil_r.
    split; auto. split. { rewrite !in_app_iff. pose proof (BL w "@" Bw eq_refl). pose proof (BL w' "@" Bw' eq_refl).
      pose proof (NA "@" ltac:(intuition discriminate)). tauto. }
    split; auto. split. lia. split. simpl; lia. split; auto. split; auto. split. simpl; tauto.
    intros P st v d _ _ AD. simpl in AD. destruct (n_lit N m e) eqn:E; inversion AD; subst.
    eapply x_num; eauto.
  - (* parameter *)
    intros w d w' Bw Bw' Dd Hd Ld pre post used vs PF NP PO SU.
    assert (PK : parfind t (decval d) <> None) by (apply PF; simpl; auto).
    destruct (parfind t (decval d)) as [k|] eqn:Ek; [|congruence]. clear PK.
    assert (kl : (k < List.length (pval t))%nat).
    { unfold parfind in Ek. apply find_pos_lt in Ek. congruence. }
    assert (ST : forall fuel u v, subst_loop (S fuel) t (pre ++ (w ++ "@" :: d ++ w') ++ post) u v =
       match find_used k u with
       | Some i => subst_loop fuel t (pre ++ (w ++ stackvar i ++ w') ++ post) u v
       | None => match nth_error (pval t) k with
                 | None => UB
                 | Some x => subst_loop fuel t (pre ++ (w ++ stackvar (List.length u) ++ w') ++ post) (u ++ [k]) (v ++ [x])
                 end
       end).
    { intros. cbn [subst_loop].
      replace (pre ++ (w ++ "@" :: d ++ w') ++ post) with ((pre ++ w) ++ "@" :: d ++ w' ++ post) by asc.
      rewrite split_at_app. 2:{ rewrite in_app_iff. pose proof (BL w "@" Bw eq_refl). tauto. }
      rewrite scan_int_digits; auto. 2:{ apply nds_gen; auto. }
      rewrite <- decval_digits. destruct (Z.leb_spec (decval d) 2147483647); [|lia].
      rewrite Ek. destruct (find_used k u).
      - f_equal. asc.
      - destruct (nth_error (pval t) k); auto. f_equal. asc. }
    assert (NAT : nat_at (w ++ "@" :: d ++ w') = 1%nat).
    { unfold nat_at. rewrite countp_app. cbn [countp]. rewrite countp_app.
      rewrite (C0 w), (C0 w') by (auto; apply CS; reflexivity).
      rewrite (countp_digits (Ascii.eqb "@") d); auto. intros c Hc. rewrite Ascii.eqb_sym. apply digit_neq; auto. }
    assert (OPS : forall i, ops (w ++ stackvar i ++ w') = ops (w ++ "@" :: d ++ w')).
    { intros. unfold ops. rewrite !countp_app. cbn [countp]. rewrite countp_app, countp_op_stackvar.
      change (is_op "@") with false. cbn iota.
      rewrite (countp_digits is_op d); auto. apply digit_not_op. }
    assert (NCL : forall i, nclose (w ++ stackvar i ++ w') = nclose (w ++ "@" :: d ++ w')).
    { intros. unfold nclose. rewrite !countp_app. cbn [countp]. rewrite countp_app.
      rewrite (countp_notin ")" (stackvar i)) by apply nopar_stackvar.
      change (Ascii.eqb ")" "@") with false. cbn iota.
      rewrite (countp_digits (Ascii.eqb ")") d); auto. intros. rewrite Ascii.eqb_sym. apply digit_neq; auto. }
    assert (NAL : forall i, ~ In "@" (w ++ stackvar i ++ w')).
    { intros. rewrite !in_app_iff. pose proof (BL w "@" Bw eq_refl). pose proof (BL w' "@" Bw' eq_refl).
      pose proof (stackvar_notin i "@" ltac:(discriminate) eq_refl). tauto. }
    destruct (find_used k used) as [i|] eqn:Eu.
    + exists 1%nat, (w ++ stackvar i ++ w'), [], []. rewrite !app_nil_r.
      split. { intros. change (1 + fuel)%nat with (S fuel). rewrite ST, Eu. auto. }
      split; auto. split; auto. rewrite NAT. split; auto. split. simpl; lia. split; auto. split; auto.
      split. { intros p [<-|[]]. unfold slot. rewrite Ek, Eu. discriminate. }
      intros P s v dd L PR AD. simpl in AD. destruct (P (decval d)) as [x|] eqn:EP; inversion AD; subst.
      apply x_stk; auto. apply find_used_lt in Eu. lia. eapply PR; eauto. unfold slot. rewrite Ek; auto.
    + destruct (nth_error (pval t) k) as [x|] eqn:En.
      2:{ apply nth_error_None in En. lia. }
      exists 1%nat, (w ++ stackvar (List.length used) ++ w'), [k], [x].
      split. { intros. change (1 + fuel)%nat with (S fuel). rewrite ST, Eu, ?En. auto. }
      split; auto. split. { apply Forall2_app; auto. }
      rewrite NAT. split; auto. split. simpl; lia. split; auto. split; auto.
      split. { intros p [<-|[]]. unfold slot. rewrite Ek, find_used_new by auto. discriminate. }
      intros P s v dd L PR AD. simpl in AD. destruct (P (decval d)) as [y|] eqn:EP; inversion AD; subst.
      rewrite app_length in L. apply x_stk; auto. lia. eapply PR; eauto. unfold slot. rewrite Ek. apply find_used_new; auto.
  - (* minus *)
    intros w l e Bw G IH pre post used vs PF NP PO SU.
    destruct (IH (pre ++ w ++ ["-"]) post used vs) as (n & l' & u2 & v2 & A1 & A2 & A3 & A4 & A5 & A6 & A7 & A8 & A9); auto.
    { rewrite !in_app_iff. pose proof (BL w "@" Bw eq_refl). cbn [In]. intuition discriminate. }
    exists n, (w ++ "-" :: l'), u2, v2.
    split. { intros. replace (pre ++ (w ++ "-" :: l) ++ post) with ((pre ++ w ++ ["-"]) ++ l ++ post) by asc.
             rewrite A1. f_equal. asc. }
    split. { rewrite !in_app_iff. pose proof (BL w "@" Bw eq_refl). cbn [In]. intuition discriminate. }
    split; auto. unfold nat_at, ops, nclose in *. rewrite !countp_app. cbn [countp].
    split. lia. split. lia. split. lia. split. lia. split; auto.
    intros P s v d L PR AD. simpl in AD. apply obind_ok in AD as ([v0 d0] & AD1 & AD).
    apply omap_ok in AD as (d' & AD2 & AD). inversion AD; subst. eapply x_neg; eauto.
  - (* plus *)
    intros w l e Bw G IH pre post used vs PF NP PO SU.
    destruct (IH (pre ++ w ++ ["+"]) post used vs) as (n & l' & u2 & v2 & A1 & A2 & A3 & A4 & A5 & A6 & A7 & A8 & A9); auto.
    { rewrite !in_app_iff. pose proof (BL w "@" Bw eq_refl). cbn [In]. intuition discriminate. }
    exists n, (w ++ "+" :: l'), u2, v2.
    split. { intros. replace (pre ++ (w ++ "+" :: l) ++ post) with ((pre ++ w ++ ["+"]) ++ l ++ post) by asc.
             rewrite A1. f_equal. asc. }
    split. { rewrite !in_app_iff. pose proof (BL w "@" Bw eq_refl). cbn [In]. intuition discriminate. }
    split; auto. unfold nat_at, ops, nclose in *. rewrite !countp_app. cbn [countp].
    split. lia. split. lia. split. lia. split. lia. split; auto.
    intros P s v d L PR AD. eapply x_pos; eauto.
  - (* brackets *)
    intros w l e w' Bw Bw' G IH pre post used vs PF NP PO SU.
    destruct (IH (pre ++ w ++ ["("]) (")" :: w' ++ post) used vs) as (n & l' & u2 & v2 & A1 & A2 & A3 & A4 & A5 & A6 & A7 & A8 & A9); auto.
    { rewrite !in_app_iff. pose proof (BL w "@" Bw eq_refl). cbn [In]. intuition discriminate. }
    { reflexivity. }
    exists n, (w ++ "(" :: l' ++ ")" :: w'), u2, v2.
    split. { intros. replace (pre ++ (w ++ "(" :: l ++ ")" :: w') ++ post) with ((pre ++ w ++ ["("]) ++ l ++ ")" :: w' ++ post) by asc.
             rewrite A1. f_equal. asc. }
    split. { rewrite !in_app_iff. cbn [In]. rewrite in_app_iff. cbn [In]. pose proof (BL w "@" Bw eq_refl).
             pose proof (BL w' "@" Bw' eq_refl). intuition discriminate. }
    split; auto. unfold nat_at, ops, nclose in *. rewrite !countp_app. cbn [countp]. rewrite !countp_app. cbn [countp].
    split. lia. split. lia. split. lia. split. lia. split; auto.
    intros P s v d L PR AD. eapply x_brk; eauto.
  - (* call *)
    intros w f l e w' Bw Bw' Fn G IH pre post used vs PF NP PO SU.
    assert (NF : ~ In "@" f) by (apply fname_notin; auto).
    destruct (IH (pre ++ w ++ f ++ ["("]) (")" :: w' ++ post) used vs) as (n & l' & u2 & v2 & A1 & A2 & A3 & A4 & A5 & A6 & A7 & A8 & A9); auto.
    { rewrite !in_app_iff. pose proof (BL w "@" Bw eq_refl). cbn [In]. intuition discriminate. }
    { reflexivity. }
    exists n, (w ++ f ++ "(" :: l' ++ ")" :: w'), u2, v2.
    split. { intros. replace (pre ++ (w ++ f ++ "(" :: l ++ ")" :: w') ++ post) with ((pre ++ w ++ f ++ ["("]) ++ l ++ ")" :: w' ++ post) by asc.
             rewrite A1. f_equal. asc. }
    split. { rewrite !in_app_iff. cbn [In]. rewrite in_app_iff. cbn [In]. pose proof (BL w "@" Bw eq_refl).
             pose proof (BL w' "@" Bw' eq_refl). intuition discriminate. }
    split; auto. unfold nat_at, ops, nclose in *. rewrite !countp_app. cbn [countp]. rewrite !countp_app. cbn [countp].
    split. lia. split. lia. split. lia. split. lia. split; auto.
    intros P s v d L PR AD. simpl in AD. destruct (find_builtin builtins f) as [b|] eqn:Eb; [|discriminate].
    apply obind_ok in AD as ([v0 d0] & AD1 & AD).
    apply omap_ok in AD as (d' & AD2 & AD). inversion AD; subst. eapply x_call; eauto.
  - intros l e G IH pre post used vs PF NP PO SU.
    destruct (IH pre post used vs) as (n & l' & u2 & v2 & A1 & A2 & A3 & A4 & A5 & A6 & A7 & A8 & A9); auto.
    exists n, l', u2, v2. repeat (split; auto). intros. apply x_fac. eauto.
  - intros l1 e1 c l2 e2 G1 IH1 C G2 IH2.
    apply (BIN xterm xfac xterm); auto. destruct C; auto.
    intros. eapply x_mul; eauto.
  - intros l e G IH pre post used vs PF NP PO SU.
    destruct (IH pre post used vs) as (n & l' & u2 & v2 & A1 & A2 & A3 & A4 & A5 & A6 & A7 & A8 & A9); auto.
    exists n, l', u2, v2. repeat (split; auto). intros. apply x_term. eauto.
  - intros l1 e1 c l2 e2 G1 IH1 C G2 IH2.
    apply (BIN xexp xterm xexp); auto.
    intros. eapply x_add; eauto.
Qed.

(** * evaluation of trees succeeds and gives the specified value *)

(** the derivative vector of a parameter, relative to used and flags *)
Definition pdual (t : ptab T) (used : list nat) (flags : list bool) (n : Z) : option (T * list T) :=
  match parfind t n with
  | None => None
  | Some k => match nth_error (pval t) k, find_used k used with
              | Some v, Some i => Some (v, if nth i flags false then unit_vec N (List.length used) i else [])
              | _, _ => None
              end
  end.

Definition init_st (used : list nat) (vs : list T) (flags : list bool) : pstate T :=
  let dv := existsb (fun b => b) flags in
  mkPst vs (if dv then init_dst N flags else []) dv (List.length used).

Lemma find_used_nth k u i : find_used k u = Some i -> nth_error u i = Some k.
Proof.
  revert i; induction u; simpl; intros i H; [discriminate|].
  destruct (Nat.eqb_spec a k). inversion H; subst; auto.
  destruct (find_used k u); inversion H; subst. simpl. auto.
Qed.

Lemma Forall2_nth {A B} (R : A -> B -> Prop) l l' i a : Forall2 R l l' -> nth_error l i = Some a ->
  exists b, nth_error l' i = Some b /\ R a b.
Proof.
  intros F; revert i; induction F; intros [|i] H0; simpl in *; try discriminate; auto.
  inversion H0; subst; eauto.
Qed.

Lemma existsb_false_nth flags i : existsb (fun b => b) flags = false -> nth i flags false = false.
Proof.
  revert i; induction flags; simpl; intros [|i] H; auto; apply orb_false_iff in H as [A B]; auto.
Qed.

Lemma init_provides t used vs flags : su_ok t used vs -> List.length flags = List.length used ->
  provides t used (pdual t used flags) (init_st used vs flags).
Proof.
  intros SU LF n i x HP HS. unfold pdual in HP. unfold slot in HS.
  destruct (parfind t n) as [k|]; [|discriminate].
  destruct (nth_error (pval t) k) as [v|] eqn:En; [|discriminate].
  rewrite HS in HP. inversion HP; subst. clear HP.
  pose proof (find_used_nth _ _ _ HS) as Hn.
  destruct (Forall2_nth _ _ _ _ _ SU Hn) as (v' & Hv & E). rewrite En in E. inversion E; subst v'.
  unfold stack_get, init_st. cbn [vst dst deriv].
  destruct (Z.ltb_spec (Z.of_nat i) 0); [lia|]. rewrite Nat2Z.id, Hv.
  destruct (existsb _ flags) eqn:Ex.
  - assert (i < List.length flags)%nat as Li. { rewrite LF. apply nth_error_Some. congruence. }
    rewrite <- LF. unfold init_dst. erewrite map_nth_error. reflexivity.
    rewrite (nth_error_nth' _ 0%nat) by (rewrite seq_length; auto). rewrite seq_nth by auto. auto.
  - rewrite existsb_false_nth; auto.
Qed.

Lemma init_sinv used vs flags t : su_ok t used vs -> List.length flags = List.length used ->
  sinv (init_st used vs flags).
Proof.
  intros SU LF D. unfold init_st in *. cbn [deriv dst vst nused] in *. rewrite D.
  destruct (init_dst_ok N flags) as [A B]. rewrite LF in *. split; auto.
  rewrite A. eapply Forall2_length; eauto.
Qed.

Lemma binop_value s c v1 d1 v2 d2 v d :
  binop N s c v1 d1 v2 d2 = Ok (v, d) ->
  v = if Ascii.eqb c "+" then n_add N v1 v2
      else if Ascii.eqb c "-" then n_sub N v1 v2
      else if Ascii.eqb c "*" then n_mul N v1 v2 else n_div N v1 v2.
Proof.
  unfold binop. destruct (negb (deriv s)). inversion 1; auto.
  intros H. apply omap_ok in H as (x & _ & H). inversion H; auto.
Qed.

Lemma ad_total P (s : pstate T) env e v :
  (forall n x, P n = Some x -> vec_ok (nused s) (snd x)) ->
  (forall n, In n (pars e) -> option_map fst (P n) = env n) ->
  ev N builtins env e = Some v ->
  exists d, ad P s e = Ok (v, d) /\ vec_ok (nused s) d.
Proof.
  intros VP. revert v; induction e; simpl; intros v PE H.
  - rewrite H. exists []. split; auto. left; auto.
  - specialize (PE n (or_introl eq_refl)). rewrite H in PE. destruct (P n) as [[x d]|] eqn:E; inversion PE; subst.
    exists d. split; auto. apply (VP n (v, d)); auto.
  - destruct (ev N builtins env e) as [x|]; inversion H; subst.
    destruct (IHe x PE eq_refl) as (d & A & V). rewrite A. simpl.
    destruct (dmap_safe s (n_opp N) d V) as (d' & B & V' & _). rewrite B. simpl. eauto.
  - destruct (ev N builtins env e1) as [x|]; [|discriminate].
    destruct (ev N builtins env e2) as [y|]; [|discriminate].
    destruct (IHe1 x ltac:(intros; apply PE; apply in_or_app; auto) eq_refl) as (d1 & A1 & V1).
    destruct (IHe2 y ltac:(intros; apply PE; apply in_or_app; auto) eq_refl) as (d2 & A2 & V2).
    rewrite A1, A2. simpl.
    destruct (binop_safe N s op x d1 y d2 V1 V2) as (v' & d & B & V). rewrite B.
    exists d. split; auto. f_equal. f_equal. rewrite (binop_value _ _ _ _ _ _ _ _ B).
    destruct (Ascii.eqb op "+"), (Ascii.eqb op "-"), (Ascii.eqb op "*"), (Ascii.eqb op "/"); congruence.
  - destruct (find_builtin builtins f) as [b|]; [|discriminate].
    destruct (ev N builtins env e) as [x|]; inversion H; subst.
    destruct (IHe x PE eq_refl) as (d & A & V). rewrite A. simpl.
    destruct (dmap_safe s (n_mul N (bder b x)) d V) as (d' & B & V' & _). rewrite B. simpl. eauto.
Qed.

Lemma ev_pars env e v : ev N builtins env e = Some v -> forall n, In n (pars e) -> env n <> None.
Proof.
  revert v; induction e; simpl; intros v H k I; try tauto.
  - destruct I as [<-|[]]. congruence.
  - destruct (ev N builtins env e) eqn:E; [|discriminate]. eauto.
  - destruct (ev N builtins env e1) eqn:E1; [|discriminate]. destruct (ev N builtins env e2) eqn:E2; [|discriminate].
    apply in_app_or in I. destruct I; eauto.
  - destruct (find_builtin builtins f); [|discriminate]. destruct (ev N builtins env e) eqn:E; [|discriminate]. eauto.
Qed.

Lemma used_flags_nth (t : ptab T) used fl : used_flags t used = Ok fl ->
  forall i k, nth_error used i = Some k -> nth_error (pfree t) k = nth_error fl i.
Proof.
  revert fl; induction used; simpl; intros fl H i k E. destruct i; discriminate.
  destruct (nth_error (pfree t) a) as [b|] eqn:Ea; [|discriminate].
  apply omap_ok in H as (x & H & ->). destruct i; simpl in *. inversion E; subst; auto. eauto.
Qed.

Lemma pdual_env t used flags n : slot t used n <> None -> option_map fst (pdual t used flags n) = env_of t n.
Proof.
  unfold slot, pdual, env_of, getpar. destruct (parfind t n) as [k|]; auto.
  destruct (nth_error (pval t) k); auto. destruct (find_used k used); [auto|congruence].
Qed.

Lemma unit_vec_len n i : List.length (unit_vec N n i) = n.
Proof. unfold unit_vec. rewrite map_length, seq_length. auto. Qed.

Lemma char_count l : (nat_at l + ops l + nclose l <= List.length l)%nat.
Proof.
  unfold nat_at, ops, nclose. induction l as [|a l IH]; auto. cbn [countp List.length].
  assert ((if Ascii.eqb "@" a then 1 else 0) + (if is_op a then 1 else 0) + (if Ascii.eqb ")" a then 1 else 0) <= 1)%nat.
  { destruct (Ascii.eqb_spec "@" a). subst; simpl; auto. destruct (Ascii.eqb_spec ")" a). subst; simpl; auto.
    destruct (is_op a); simpl; lia. }
  lia.
Qed.

(** a text of the grammar is evaluated to its value *)
Lemma parse_gram (t : ptab T) line e v :
  wf t -> gexp line e -> ~ In "#" line -> (Z.of_nat (List.length line) <= 2147483647)%Z ->
  ev N builtins (env_of t) e = Some v ->
  exists d used flags,
    parse N builtins t line = Ok (v, d, used) /\
    used_flags t used = Ok flags /\ List.length flags = List.length used /\
    (forall n, In n (pars e) -> slot t used n <> None) /\
    ad (pdual t used flags) (init_st used [] flags) e = Ok (v, d) /\ vec_ok (List.length used) d /\
    Forall (fun k => k < List.length (pval t))%nat used.
Proof.
  intros (W1 & W2 & W3) G NH LL EV.
  assert (PF : forall n, In n (pars e) -> parfind t n <> None).
  { intros n I. pose proof (ev_pars _ _ _ EV n I) as K. unfold env_of, getpar in K.
    destruct (parfind t n); [discriminate|congruence]. }
  destruct (subst_gram t ltac:(congruence)) as (_ & _ & SG).
  destruct (SG line e G [] [] [] [] PF ltac:(simpl; tauto) Logic.I ltac:(constructor))
    as (n & l' & used & vs & A1 & A2 & A3 & A4 & A5 & A6 & A7 & A8 & A9).
  cbn [app] in *. rewrite !app_nil_r in A1.
  assert (UF : Forall (fun k => k < List.length (pval t))%nat used).
  { clear - A3. unfold su_ok in A3. induction A3; constructor; auto. apply nth_error_Some. congruence. }
  destruct (used_flags_safe t used ltac:(congruence) UF) as (flags & F1 & F2).
  pose proof (init_provides t used vs flags A3 F2) as PR.
  pose proof (init_sinv used vs flags t A3 F2) as SI.
  assert (PE : forall n, In n (pars e) -> option_map fst (pdual t used flags n) = env_of t n).
  { intros; apply pdual_env; auto. }
  assert (PV : forall n x, pdual t used flags n = Some x -> vec_ok (List.length used) (snd x)).
  { intros m x. unfold pdual. destruct (parfind t m); [|discriminate]. destruct (nth_error _ _); [|discriminate].
    destruct (find_used _ _) as [i|]; inversion 1; subst. simpl.
    destruct (nth i flags false); [right; apply unit_vec_len|left; auto]. }
  destruct (ad_total (pdual t used flags) (init_st used vs flags) (env_of t) e v PV PE EV) as (d & AD & V).
  assert (AD0 : ad (pdual t used flags) (init_st used [] flags) e = Ok (v, d)).
  { rewrite <- AD. clear. generalize (pdual t used flags). intros P.
    induction e; simpl; auto.
    - rewrite IHe. reflexivity.
    - rewrite IHe1, IHe2. reflexivity.
    - rewrite IHe. reflexivity. }
  pose proof (char_count line) as CC. pose proof imax_Z as IM.
  exists d, used, flags. split; [|repeat (split; auto)].
  unfold parse. assert (split_at "#" line = None) as -> by (apply split_at_none; auto).
  assert (subst_loop (S (List.length line)) t line [] [] = Ok (l', used, vs)) as ->.
  { assert (exists f, S (List.length line) = n + S f)%nat as [f ->]. { exists (List.length line - n)%nat. lia. }
    rewrite A1. cbn [subst_loop]. assert (split_at "@" l' = None) as -> by (apply split_at_none; auto). auto. }
  cbn [obind]. rewrite F1. cbn [obind].
  fold (init_st used vs flags).
  assert (bracket_loop N builtins (2 * List.length l' + 3) (init_st used vs flags) l' = Ok (v, d)) as ->.
  { apply bracket_gram; auto.
    - eapply A9; eauto. lia.
    - pose proof (countp_le_length (Ascii.eqb ")") l'). unfold nclose. lia.
    - unfold vlen, init_st; cbn [vst]. rewrite A6, A7. apply Forall2_length in A3. lia. }
  reflexivity.
Qed.

(** the grammar never contains the internal '#' *)
Lemma gram_nohash :
  (forall l e, gfac l e -> ~ In "#" l) /\ (forall l e, gterm l e -> ~ In "#" l) /\
  (forall l e, gexp l e -> ~ In "#" l).
Proof.
  assert (BL : forall w, blank w -> ~ In "#" w) by (intros; apply blank_notin; auto).
  apply g_mutind; intros; rewrite ?in_app_iff; cbn [In]; rewrite ?in_app_iff; cbn [In];
  repeat match goal with H : blank ?w |- _ => pose proof (BL w H); clear H end.
  - assert (~ In "#" s). { intros K. pose proof (numeral_chars _ _ _ _ n K). intuition discriminate. } tauto.
  - assert (~ In "#" d). { intros K. unfold digits in d0. rewrite Forall_forall in d0. apply d0 in K. discriminate. }
    intuition discriminate.
  - intuition discriminate.
  - intuition discriminate.
  - intuition discriminate.
  - assert (~ In "#" f) by (apply fname_notin; auto). intuition discriminate.
  - auto.
  - destruct o; subst; intuition discriminate.
  - auto.
  - destruct o; subst; intuition discriminate.
Qed.

End Proof.
