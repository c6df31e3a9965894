(** Safety of the parser model: no invalid read and no exhausted fuel. *)
From Coq Require Import List ZArith Ascii String Bool Lia.
From Verif Require Import Base ParamModel ParamProof ParserModel ParserLex.
Import ListNotations.
Local Open Scope char_scope.

(** every '#' is followed by a maximal digit string with a value below n *)
Fixpoint tok_ok (n : nat) (l : text) : Prop :=
  match l with
  | [] => True
  | c :: r => (c = "#" -> exists d r', span_digits r = (d, r') /\ d <> [] /\
                                       (digits_val d < Z.of_nat n)%Z) /\ tok_ok n r
  end.

(** no ')' is directly followed by a digit *)
Fixpoint nopd (l : text) : Prop :=
  match l with
  | [] => True
  | c :: r => (c = ")" -> nds r) /\ nopd r
  end.

Lemma tok_ok_suffix n a b : tok_ok n (a ++ b) -> tok_ok n b.
Proof. induction a; simpl; auto. intros [_ H]; auto. Qed.

Lemma tok_ok_mono n m l : (n <= m)%nat -> tok_ok n l -> tok_ok m l.
Proof.
  intros L; induction l; simpl; auto. intros [A B]; split; auto.
  intros E. destruct (A E) as (d & r' & X & Y & Z). exists d, r'. repeat split; auto. lia.
Qed.

Lemma tok_ok_no n l : ~ In "#" l -> tok_ok n l.
Proof. induction l; simpl; auto. intros H; split. intros; subst; tauto. apply IHl; tauto. Qed.

Lemma tok_ok_split n a b : nds b -> tok_ok n (a ++ b) <-> tok_ok n a /\ tok_ok n b.
Proof.
  intros N. induction a as [|c a IH]; simpl. tauto.
  rewrite IH. split.
  - intros [A [B C]]; split; auto; split; auto. intros E.
    destruct (A E) as (d & r' & X & Y & Z).
    destruct (span_digits a) as [d' r''] eqn:Ea.
    apply span_digits_spec in Ea as (P & Q & R). 
    apply span_digits_spec in X as (P' & Q' & R').
    exists d', r''. subst a.
    assert (d = d').
    { rewrite <- app_assoc in P'. assert (nds (r'' ++ b)) by (destruct r''; auto).
      pose proof (span_digits_app d' (r'' ++ b) Q H) as S1.
      pose proof (span_digits_app d r' Q' R') as S2. congruence. }
    subst; auto.
  - intros [[A B] C]; split; auto. intros E.
    destruct (A E) as (d & r' & X & Y & Z). apply span_digits_spec in X as (P & Q & R).
    exists d, (r' ++ b). subst a. rewrite <- app_assoc. split; auto.
    apply span_digits_app; auto. destruct r'; auto.
Qed.

Lemma tok_ok_join n a b : nds b -> tok_ok n a /\ tok_ok n b -> tok_ok n (a ++ b).
Proof. intros H K. apply (proj2 (tok_ok_split n a b H)). exact K. Qed.

Lemma nopd_suffix a b : nopd (a ++ b) -> nopd b.
Proof. induction a; simpl; auto. intros [_ H]; auto. Qed.

Lemma nopd_no l : ~ In ")" l -> nopd l.
Proof. induction l; simpl; auto. intros H; split. intros; subst; tauto. apply IHl; tauto. Qed.

Lemma nopd_split a b : nds b -> nopd (a ++ b) <-> nopd a /\ nopd b.
Proof.
  intros N. induction a as [|c a IH]; simpl. tauto.
  rewrite IH. destruct a; simpl; tauto.
Qed.

Lemma nopd_join a b : nds b -> nopd a /\ nopd b -> nopd (a ++ b).
Proof. intros H K. apply (proj2 (nopd_split a b H)). exact K. Qed.

Lemma stackvar_tok i n : (i < n)%nat -> tok_ok n (stackvar i).
Proof.
  intros L. destruct (stackvar_spec i) as (d & E & Hn & F & V). rewrite E. simpl. split.
  - intros _. exists d, []. split. rewrite <- (app_nil_r d) at 1. apply span_digits_app; simpl; auto.
    split; auto. lia.
  - apply tok_ok_no. intros I. rewrite Forall_forall in F. apply F in I. discriminate.
Qed.

Lemma stackvar_notin i c : c <> "#" -> is_digit c = false -> ~ In c (stackvar i).
Proof.
  intros Hc Hd. destruct (stackvar_spec i) as (d & E & Hn & F & V). rewrite E.
  intros [I|I]; [congruence|]. rewrite Forall_forall in F. apply F in I. congruence.
Qed.

Lemma stackvar_nds i l : nds (stackvar i ++ l).
Proof. unfold stackvar. reflexivity. Qed.

Lemma countp_stackvar P i : P "#" = false -> (forall c, is_digit c = true -> P c = false) ->
  countp P (stackvar i) = 0%nat.
Proof.
  intros A B. destruct (stackvar_spec i) as (d & E & Hn & F & V). rewrite E. simpl.
  rewrite A. apply countp_digits; auto.
Qed.

Lemma stackvar_cons i : exists d, stackvar i = "#" :: d.
Proof. unfold stackvar. eauto. Qed.
Global Opaque stackvar.

Section Safe.
Context {T : Type} (N : numops T) (builtins : list (builtin T)).
Notation getnum := (getnum N builtins).
Notation getnum_base := (getnum_base N builtins).

Definition vec_ok (n : nat) (d : list T) : Prop := d = [] \/ List.length d = n.

Definition sinv (s : pstate T) : Prop :=
  deriv s = true -> List.length (dst s) = List.length (vst s) /\
                    Forall (vec_ok (nused s)) (dst s).

Lemma getnum_base_rest s c r v d rest : getnum_base s c r = Ok (v, d, rest) ->
  exists p, c :: r = p ++ rest /\ nds rest.
Proof.
  unfold ParserModel.getnum_base. intros H. destruct (is_lower c).
  - destruct (split_at "#" (c :: r)) as [[name r1]|] eqn:E; [|discriminate].
    apply split_at_spec in E as [E _].
    destruct (find_builtin builtins name); [|discriminate].
    destruct (scan_int r1) as [[i rest']|] eqn:E2; [|discriminate].
    apply scan_int_rest in E2 as (p & E2 & _ & Nd).
    apply obind_ok in H as ([v' d'] & H1 & H2). apply obind_ok in H2 as (d'' & H2 & H3).
    inversion H3; subst. exists (name ++ "#" :: p). rewrite <- app_assoc. simpl. split; auto.
  - destruct (Ascii.eqb c "#").
    + destruct (scan_int r) as [[i rest']|] eqn:E2; [|discriminate].
      apply scan_int_rest in E2 as (p & E2 & _ & Nd).
      apply obind_ok in H as ([v' d'] & H1 & H2). inversion H2; subst.
      exists (c :: p); auto.
    + destruct (scan_float (c :: r)) as [[[m e] rest']|] eqn:E2; [|discriminate].
      apply scan_float_rest in E2 as (p & E2 & _ & Nd).
      destruct (n_lit N m e); inversion H; subst. eauto.
Qed.

Lemma getnum_rest s l v d rest : getnum s l = Ok (v, d, rest) ->
  exists p, l = p ++ rest /\ nds rest.
Proof.
  revert v d; induction l as [|c l IH]; intros v d H; [discriminate|]. cbn [ParserModel.getnum] in H.
  destruct (is_space c). { destruct (IH _ _ H) as (p & E & Nd). exists (c :: p). subst; auto. }
  destruct (Ascii.eqb c "-").
  { apply obind_ok in H as ([[v' d'] rest'] & H1 & H2). apply obind_ok in H2 as (d'' & H2 & H3).
    inversion H3; subst. destruct (IH _ _ H1) as (p & E & Nd). exists (c :: p). subst; auto. }
  destruct (Ascii.eqb c "+").
  { destruct (IH _ _ H) as (p & E & Nd). exists (c :: p). subst; auto. }
  eapply getnum_base_rest; eauto.
Qed.

Definition good_num (s : pstate T) (x : outcome (gres (T := T))) : Prop :=
  match x with
  | Ok (v, d, rest) => vec_ok (nused s) d
  | Err _ => True
  | UB => False
  | NoFuel => False
  end.

Lemma stack_get_safe (s : pstate T) i : sinv s -> (0 <= i < Z.of_nat (List.length (vst s)))%Z ->
  exists v d, stack_get s i = Ok (v, d) /\ vec_ok (nused s) d.
Proof.
  intros I L. unfold stack_get. destruct (Z.ltb_spec i 0); [lia|].
  destruct (nth_error (vst s) (Z.to_nat i)) eqn:E.
  - destruct (deriv s) eqn:Ed.
    + destruct (I Ed) as [I1 I2].
      destruct (nth_error (dst s) (Z.to_nat i)) eqn:E2.
      * exists t, l. split; auto. rewrite Forall_forall in I2. apply I2. eapply nth_error_In; eauto.
      * apply nth_error_None in E2. lia.
    + exists t, []. split; auto. left; auto.
  - apply nth_error_None in E. lia.
Qed.

Lemma dmap_safe (s : pstate T) f d : vec_ok (nused s) d ->
  exists d', dmap s f d = Ok d' /\ vec_ok (nused s) d' /\ d' = map f d.
Proof.
  intros [E|E]; unfold dmap.
  - subst. exists []. repeat split; auto. left; auto.
  - destruct d as [|x d]. exists []; repeat split; auto. left; auto.
    rewrite E, Nat.eqb_refl. eexists; repeat split; auto. right. rewrite map_length. auto.
Qed.

Lemma tok_scan n r i rest : tok_ok n ("#" :: r) -> scan_int r = Some (i, rest) ->
  (0 <= i < Z.of_nat n)%Z.
Proof.
  simpl. intros [A _] H. destruct (A eq_refl) as (d & r' & X & Y & Z).
  apply span_digits_spec in X as (P & Q & R). subst r.
  rewrite scan_int_digits in H by auto.
  destruct (_ <=? _)%Z; inversion H; subst.
  pose proof (digits_val_nonneg _ Q). lia.
Qed.

Lemma getnum_safe s l : sinv s -> tok_ok (List.length (vst s)) l -> good_num s (getnum s l).
Proof.
  intros I. induction l as [|c l IH]; intros K; [exact Logic.I|]. cbn [ParserModel.getnum].
  destruct (is_space c). { apply IH. destruct K; auto. }
  destruct (Ascii.eqb c "-").
  { assert (tok_ok (List.length (vst s)) l) as K' by (destruct K; auto). specialize (IH K').
    destruct (getnum s l) as [[[v d] rest]| | |]; simpl in *; auto.
    destruct (dmap_safe s (n_opp N) d IH) as (d' & E & V & _). rewrite E. simpl. auto. }
  destruct (Ascii.eqb c "+"). { apply IH. destruct K; auto. }
  unfold ParserModel.getnum_base. destruct (is_lower c).
  - destruct (split_at "#" (c :: l)) as [[name r1]|] eqn:E; [|simpl; auto].
    apply split_at_spec in E as [E _].
    destruct (find_builtin builtins name) as [b|]; [|simpl; auto].
    destruct (scan_int r1) as [[i rest]|] eqn:E2; [|simpl; auto].
    rewrite E in K. apply tok_ok_suffix in K.
    pose proof (tok_scan _ _ _ _ K E2) as L.
    destruct (stack_get_safe s i I L) as (v & d & G & V). rewrite G. simpl.
    destruct (dmap_safe s (n_mul N (bder b v)) d V) as (d' & Ed & V' & _). rewrite Ed. simpl. auto.
  - destruct (Ascii.eqb_spec c "#").
    + subst c. destruct (scan_int l) as [[i rest]|] eqn:E2; [|simpl; auto].
      pose proof (tok_scan _ _ _ _ K E2) as L.
      destruct (stack_get_safe s i I L) as (v & d & G & V). rewrite G. simpl. auto.
    + destruct (scan_float (c :: l)) as [[[m e] rest]|]; [|simpl; auto].
      destruct (n_lit N m e); simpl; auto. left; auto.
Qed.

Lemma map2_length (f : T -> T -> T) a b : List.length a = List.length b ->
  List.length (map2 f a b) = List.length a.
Proof. revert b; induction a; destruct b; simpl; intros; auto; try discriminate. Qed.

Lemma dacc_safe (s : pstate T) f base d : vec_ok (nused s) d ->
  (d <> [] -> List.length base = nused s) ->
  exists b, dacc s f base d = Ok b /\ List.length b = List.length base.
Proof.
  intros V L. unfold dacc. destruct d as [|x d]. eauto.
  destruct V as [V|V]; [discriminate|]. specialize (L ltac:(discriminate)).
  rewrite V, L, Nat.eqb_refl. simpl. eexists; split; eauto. rewrite map2_length; congruence.
Qed.

Lemma binop_safe s op v1 d1 v2 d2 : vec_ok (nused s) d1 -> vec_ok (nused s) d2 ->
  exists v d, binop N s op v1 d1 v2 d2 = Ok (v, d) /\ vec_ok (nused s) d.
Proof.
  intros V1 V2. unfold binop.
  set (base := match d1, d2 with [], [] => [] | _, _ => dzero N s end).
  assert (B : (d1 <> [] \/ d2 <> []) -> List.length base = nused s).
  { subst base. intros H. destruct d1, d2; try (apply repeat_length); destruct H; congruence. }
  assert (B0 : vec_ok (nused s) base).
  { subst base. destruct d1, d2; try (right; apply repeat_length). left; auto. }
  destruct (deriv s); simpl; [|eauto].
  set (start := match d1 with [] => base | _ => d1 end).
  assert (S0 : vec_ok (nused s) start).
  { subst start. destruct d1; auto. }
  assert (S1 : d2 <> [] -> List.length start = nused s).
  { subst start. destruct d1; auto. destruct V1; [discriminate|auto]. }
  destruct (Ascii.eqb op "+"); [|destruct (Ascii.eqb op "-"); [|destruct (Ascii.eqb op "*")]].
  - destruct (dacc_safe s (n_add N) start d2 V2 S1) as (b & E & L). rewrite E. simpl.
    eexists _, _; split; eauto. destruct S0 as [S0|S0]. left. destruct b; auto. rewrite S0 in L; discriminate.
    right; congruence.
  - destruct (dacc_safe s (n_sub N) start d2 V2 S1) as (b & E & L). rewrite E. simpl.
    eexists _, _; split; eauto. destruct S0 as [S0|S0]. left. destruct b; auto. rewrite S0 in L; discriminate.
    right; congruence.
  - destruct (dacc_safe s (fun a x => n_add N a (n_mul N x v2)) base d1 V1 ltac:(auto)) as (b & E & L).
    rewrite E. simpl.
    destruct (dacc_safe s (fun a x => n_add N a (n_mul N v1 x)) b d2 V2 ltac:(intros; rewrite L; auto)) as (b' & E' & L').
    rewrite E'. simpl. eexists _, _; split; eauto.
    destruct B0 as [B0|B0]. left. destruct b'; auto. rewrite B0 in L; rewrite L in L'; discriminate.
    right; congruence.
  - destruct (dacc_safe s (fun a x => n_add N a (n_div N x v2)) base d1 V1 ltac:(auto)) as (b & E & L).
    rewrite E. simpl.
    destruct (dacc_safe s (fun a x => n_sub N a (n_div N (n_mul N v1 x) (n_mul N v2 v2))) b d2 V2 ltac:(intros; rewrite L; auto)) as (b' & E' & L').
    rewrite E'. simpl. eexists _, _; split; eauto.
    destruct B0 as [B0|B0]. left. destruct b'; auto. rewrite B0 in L; rewrite L in L'; discriminate.
    right; congruence.
Qed.

Lemma sinv_push s v d : sinv s -> vec_ok (nused s) d -> sinv (push s v d).
Proof.
  intros I V E. unfold push in *; simpl in *. rewrite E. destruct (I E) as [A B].
  rewrite !app_length, A. simpl. split; auto. apply Forall_app; auto.
Qed.

Definition good_comp (s : pstate T) (x : outcome (T * list T * pstate T)) : Prop :=
  match x with
  | Ok (v, d, s') => vec_ok (nused s) d /\ sinv s' /\ nused s' = nused s /\ deriv s' = deriv s /\
                     (List.length (vst s) <= List.length (vst s'))%nat
  | Err _ => True
  | UB => False
  | NoFuel => True
  end.

Lemma good_comp_push s v d x : good_comp (push s v d) x -> good_comp s x.
Proof.
  destruct x as [[[a b] s']| | |]; simpl; auto. rewrite app_length. simpl.
  intuition lia.
Qed.

Definition ends_op (pre : text) : Prop := pre = [] \/ exists p c, pre = p ++ [c] /\ is_op c = true.

Lemma is_op_nodigit c : is_op c = true -> is_digit c = false.
Proof. intros H. destruct (is_digit c) eqn:E; auto. apply digit_not_op in E. congruence. Qed.

Lemma ends_op_tok n pre x y : ends_op pre -> tok_ok n (pre ++ x) -> tok_ok n y -> tok_ok n (pre ++ y).
Proof.
  intros [E|(p & c & E & O)] K Y; subst; auto.
  rewrite <- app_assoc in *. simpl in *.
  pose proof (is_op_nodigit _ O) as D.
  apply tok_ok_split in K; auto. apply tok_ok_join; auto.
  destruct K as [K1 K2]. split; auto. simpl. split; auto.
  intros Ec. subst c. discriminate.
Qed.

(** what a step of the loop consumes *)
Lemma step_split s suf v d r1 op r2 : getnum s suf = Ok (v, d, r1) -> skipws r1 = op :: r2 ->
  exists p, suf = p ++ op :: r2.
Proof.
  intros H K. apply getnum_rest in H as (p & E & _). destruct (skipws_suffix r1) as [w Ew].
  exists (p ++ w). rewrite <- app_assoc. congruence.
Qed.

Lemma firstn_consumed (p : text) op r2 :
  firstn (List.length (p ++ op :: r2) - List.length r2) (p ++ op :: r2) = p ++ [op].
Proof.
  replace (p ++ op :: r2) with ((p ++ [op]) ++ r2) by (rewrite <- app_assoc; auto).
  rewrite app_length. replace (_ - _)%nat with (List.length (p ++ [op]) + 0)%nat by lia.
  rewrite firstn_app_2. simpl. apply app_nil_r.
Qed.

Lemma compute_loop_safe fuel : forall pass2 s pre suf,
  sinv s -> ends_op pre -> tok_ok (List.length (vst s)) (pre ++ suf) ->
  good_comp s (compute_loop N builtins fuel pass2 s pre suf).
Proof.
  induction fuel as [|f IH]; intros pass2 s pre suf I P K; [exact Logic.I|].
  cbn [compute_loop].
  pose proof (tok_ok_suffix _ _ _ K) as Ks.
  pose proof (getnum_safe s suf I Ks) as G.
  destruct (getnum s suf) as [[[v1 d1] r1]| | |] eqn:E1; simpl in G |- *; auto.
  destruct (skipws r1) as [|op r2] eqn:E2.
  - destruct pass2; simpl.
    + split; [destruct (deriv s); auto; left; auto|]. auto.
    + apply IH; auto. left; auto.
  - destruct (is_op op) eqn:O; simpl; auto.
    destruct (step_split _ _ _ _ _ _ _ E1 E2) as [p Ep].
    destruct (negb pass2 && is_pm op).
    + apply IH; auto.
      * right. exists (pre ++ p), op. subst suf. rewrite firstn_consumed, app_assoc. auto.
      * subst suf. rewrite firstn_consumed, <- !app_assoc. simpl. auto.
    + assert (K2 : tok_ok (List.length (vst s)) r2).
      { subst suf. rewrite app_assoc in K. apply tok_ok_suffix in K. destruct K; auto. }
      pose proof (getnum_safe s r2 I K2) as G2.
      destruct (getnum s r2) as [[[v2 d2] r3]| | |] eqn:E3; simpl in G2 |- *; auto.
      destruct (binop_safe s op v1 d1 v2 d2 G G2) as (v & d & B & V). rewrite B. simpl.
      eapply good_comp_push. apply IH; auto.
      * apply sinv_push; auto.
      * apply getnum_rest in E3 as (p3 & E3 & N3).
        assert (tok_ok (List.length (vst s)) r3) by (subst r2; eapply tok_ok_suffix; eauto).
        unfold push; cbn [vst]. rewrite app_length.
        eapply ends_op_tok; eauto.
        -- eapply tok_ok_mono; [|exact K]. lia.
        -- apply tok_ok_join; auto. split. apply stackvar_tok. simpl; lia.
           eapply tok_ok_mono; [|eauto]. lia.
Qed.

(** the fuel of [compute] suffices *)
Lemma compute_loop_fuel fuel : forall (pass2 : bool) s pre suf,
  (countp is_op (pre ++ suf) + (if pass2 then 1 else countp is_op suf + 2) <= fuel)%nat ->
  compute_loop N builtins fuel pass2 s pre suf <> NoFuel.
Proof.
  assert (GN : forall s l, getnum s l <> NoFuel).
  { intros s. assert (SG : forall i, stack_get s i <> NoFuel).
    { intros i. unfold stack_get. destruct (i <? 0)%Z; [discriminate|]. destruct (nth_error _ _); [|discriminate].
      destruct (deriv s); [|discriminate]. destruct (nth_error _ _); discriminate. }
    assert (DM : forall f d, dmap s f d <> NoFuel).
    { intros. unfold dmap. destruct d; [discriminate|]. destruct (_ =? _)%nat; discriminate. }
    induction l; [discriminate|]. cbn [ParserModel.getnum].
    destruct (is_space a); auto.
    destruct (Ascii.eqb a "-").
    { destruct (getnum s l) as [[[? ?] ?]| | |]; simpl; try discriminate; try tauto.
      specialize (DM (n_opp N) l0). destruct (dmap s _ l0); simpl; try discriminate; tauto. }
    destruct (Ascii.eqb a "+"); auto.
    unfold ParserModel.getnum_base. destruct (is_lower a).
    - destruct (split_at _ _) as [[? ?]|]; [|discriminate]. destruct (find_builtin _ _) as [b|]; [|discriminate].
      destruct (scan_int _) as [[? ?]|]; [|discriminate]. specialize (SG z).
      destruct (stack_get s z) as [[v d]| | |]; simpl; try discriminate; try tauto.
      specialize (DM (n_mul N (bder b v)) d). destruct (dmap s _ d); simpl; try discriminate; tauto.
    - destruct (Ascii.eqb a "#").
      + destruct (scan_int _) as [[? ?]|]; [|discriminate]. specialize (SG z).
        destruct (stack_get s z) as [[v d]| | |]; simpl; try discriminate; try tauto.
      + destruct (scan_float _) as [[[? ?] ?]|]; [|discriminate]. destruct (n_lit N z z0); discriminate. }
  assert (BN : forall s op v1 d1 v2 d2, binop N s op v1 d1 v2 d2 <> NoFuel).
  { intros. unfold binop. destruct (deriv s); simpl; [|discriminate].
    assert (DA : forall f b d, dacc s f b d <> NoFuel).
    { intros. unfold dacc. destruct d; [discriminate|]. destruct (_ && _); discriminate. }
    apply omap_nf.
    repeat match goal with |- context [Ascii.eqb ?a ?b] => destruct (Ascii.eqb a b) end;
    try apply DA; apply obind_nf; auto. }
  induction fuel as [|f IH]; intros pass2 s pre suf L. { destruct pass2; lia. }
  cbn [compute_loop]. specialize (GN s).
  destruct (getnum s suf) as [[[v1 d1] r1]| | |] eqn:E1; simpl; try discriminate; [|exfalso; eapply GN; eauto].
  destruct (skipws r1) as [|op r2] eqn:E2.
  - destruct pass2; [discriminate|]. apply IH. simpl. lia.
  - destruct (is_op op) eqn:O; simpl; [|discriminate].
    destruct (step_split _ _ _ _ _ _ _ E1 E2) as [p Ep].
    rewrite Ep in L. rewrite !countp_app in L. simpl in L. rewrite O in L.
    destruct pass2; simpl.
    + destruct (getnum s r2) as [[[v2 d2] r3]| | |] eqn:E3; simpl; try discriminate; [|exfalso; eapply GN; eauto].
      specialize (BN s op v1 d1 v2 d2).
      destruct (binop _ _ _ _ _ _ _) as [[? ?]| | |]; simpl; try discriminate; try tauto.
      apply IH. apply getnum_rest in E3 as (q & E3 & _). subst r2.
      rewrite !countp_app in *. rewrite countp_stackvar; [simpl; lia|reflexivity|apply digit_not_op].
    + destruct (is_pm op).
      * apply IH. rewrite Ep, firstn_consumed. rewrite !countp_app. simpl. rewrite O. lia.
      * destruct (getnum s r2) as [[[v2 d2] r3]| | |] eqn:E3; simpl; try discriminate; [|exfalso; eapply GN; eauto].
        specialize (BN s op v1 d1 v2 d2).
        destruct (binop _ _ _ _ _ _ _) as [[? ?]| | |]; simpl; try discriminate; try tauto.
        apply IH. apply getnum_rest in E3 as (q & E3 & _). subst r2.
        rewrite !countp_app in *. rewrite countp_stackvar; [simpl; lia|reflexivity|apply digit_not_op].
Qed.

Lemma compute_nofuel s expr : compute N builtins s expr <> NoFuel.
Proof.
  unfold compute. apply compute_loop_fuel. simpl.
  pose proof (countp_le_length is_op expr). lia.
Qed.

Lemma compute_safe s expr : sinv s -> tok_ok (List.length (vst s)) expr ->
  good_comp s (compute N builtins s expr).
Proof. intros. unfold compute. apply compute_loop_safe; auto. left; auto. Qed.

(** * brackets *)

Definition good_res (x : outcome (T * list T)) : Prop :=
  match x with UB => False | _ => True end.

Lemma bracket_loop_safe fuel : forall s line,
  sinv s -> tok_ok (List.length (vst s)) line -> nopd line ->
  good_res (bracket_loop N builtins fuel s line).
Proof.
  induction fuel as [|f IH]; intros s line I K P; [exact Logic.I|]. cbn [bracket_loop].
  destruct (split_at ")" line) as [[before after]|] eqn:E.
  - apply split_at_spec in E as [E NI].
    destruct before as [|c before].
    + destruct (rsplit_at "(" line) as [[pre inner]|] eqn:E2; [|exact Logic.I].
      apply rsplit_at_spec in E2 as [E2 _].
      rewrite E2 in K, P. apply tok_ok_split in K as [K1 K2]; [|reflexivity].
      apply nopd_split in P as [P1 P2]; [|reflexivity].
      assert (K3 : tok_ok (List.length (vst s)) inner) by (destruct K2; auto).
      pose proof (compute_safe s inner I K3) as G.
      destruct (compute N builtins s inner) as [[[v d] s']| | |]; simpl in G |- *; auto.
      destruct G as (V & I' & Hn & Hd & L).
      apply IH.
      * apply sinv_push; auto. rewrite Hn; auto.
      * unfold push; cbn [vst]. rewrite app_length.
        destruct (_ =? _)%nat.
        -- apply tok_ok_join. apply stackvar_nds. split. eapply tok_ok_mono; [|eauto]; lia.
           apply tok_ok_join. reflexivity. split. apply stackvar_tok; simpl; lia.
           eapply tok_ok_mono; [|eauto]; lia.
        -- apply tok_ok_join. rewrite <- (app_nil_r (stackvar _)). apply stackvar_nds.
           split. eapply tok_ok_mono; [|eauto]; lia. apply stackvar_tok; simpl; lia.
      * destruct (_ =? _)%nat.
        -- apply nopd_join. apply stackvar_nds. split; auto. apply nopd_join. reflexivity.
           split; auto. apply nopd_no, stackvar_notin; [discriminate|reflexivity].
        -- apply nopd_join. rewrite <- (app_nil_r (stackvar _)). apply stackvar_nds.
           split; auto. apply nopd_no, stackvar_notin; [discriminate|reflexivity].
    + destruct (rsplit_at "(" (c :: before)) as [[pre inner]|] eqn:E2; [|exact Logic.I].
      apply rsplit_at_spec in E2 as [E2 _].
      rewrite E in K, P. rewrite E2 in K, P. rewrite <- app_assoc in K, P. simpl in K, P.
      apply tok_ok_split in K as [K1 K2]; [|reflexivity].
      apply nopd_split in P as [P1 P2]; [|reflexivity].
      destruct K2 as [_ K2]. destruct P2 as [_ P2].
      apply tok_ok_split in K2 as [K2 K3]; [|reflexivity].
      apply nopd_split in P2 as [P2 P3]; [|reflexivity].
      destruct P3 as [P3 P4]. specialize (P3 eq_refl). destruct K3 as [_ K3].
      pose proof (compute_safe s inner I K2) as G.
      destruct (compute N builtins s inner) as [[[v d] s']| | |]; simpl in G |- *; auto.
      destruct G as (V & I' & Hn & Hd & L).
      apply IH.
      * apply sinv_push; auto. rewrite Hn; auto.
      * unfold push; cbn [vst]. rewrite app_length.
        apply tok_ok_join. apply stackvar_nds. split. eapply tok_ok_mono; [|eauto]; lia.
        apply tok_ok_join; auto. split. apply stackvar_tok; simpl; lia.
        eapply tok_ok_mono; [|eauto]; lia.
      * apply nopd_join. apply stackvar_nds. split; auto. apply nopd_join; auto.
        split; auto. apply nopd_no, stackvar_notin; [discriminate|reflexivity].
  - pose proof (compute_safe s line I K) as G.
    destruct (compute N builtins s line) as [[[v d] s']| | |]; simpl in G |- *; auto.
Qed.

Definition bmeas (line : text) : nat :=
  match line with
  | [] => 0
  | c :: r =>
      if Ascii.eqb c ")" then
        (2 * countp (Ascii.eqb "(") line + match r with x :: _ => if Ascii.eqb "(" x then 1 else 0 | [] => 0 end)%nat
      else countp (Ascii.eqb ")") line
  end.

Lemma countp_notin c l : ~ In c l -> countp (Ascii.eqb c) l = 0%nat.
Proof.
  induction l; simpl; auto. intros H. destruct (Ascii.eqb_spec c a). subst; tauto.
  apply IHl. tauto.
Qed.

Lemma bracket_loop_fuel fuel : forall s line, (bmeas line < fuel)%nat ->
  bracket_loop N builtins fuel s line <> NoFuel.
Proof.
  induction fuel as [|f IH]; intros s line L; [lia|]. cbn [bracket_loop].
  assert (EQ : forall c x, c <> x -> Ascii.eqb x c = false).
  { intros. destruct (Ascii.eqb_spec x c); congruence. }
  destruct (split_at ")" line) as [[before after]|] eqn:E.
  - apply split_at_spec in E as [E NI].
    destruct before as [|c before].
    + destruct (rsplit_at "(" line) as [[pre inner]|] eqn:E2; [|discriminate].
      apply rsplit_at_spec in E2 as [E2 NI2].
      pose proof (compute_nofuel s inner) as G.
      destruct (compute N builtins s inner) as [[[v d] s']| | |]; simpl; try discriminate; try tauto.
      apply IH. simpl in E.
      assert (CS : forall k, countp (Ascii.eqb "(") (stackvar k) = 0%nat).
      { intros. apply countp_notin. apply stackvar_notin; [discriminate|reflexivity]. }
      apply countp_notin in NI2.
      rewrite E in E2. destruct pre as [|q [|x pre]]; [discriminate| |].
      * inversion E2; subst q. rewrite E, H1 in L. simpl in L. rewrite NI2 in L.
        cbn [List.length Nat.eqb]. cbn [app bmeas]. rewrite Ascii.eqb_refl.
        cbn [countp]. rewrite countp_app, CS. cbn [countp]. rewrite NI2.
        destruct (stackvar_cons (List.length (vst s'))) as [dd ->]. simpl. lia.
      * inversion E2; subst q after. rewrite E in L.
        cbn [List.length Nat.eqb]. cbn [app bmeas] in *. rewrite Ascii.eqb_refl in *.
        cbn [countp] in *. rewrite countp_app, CS. rewrite countp_app in L. cbn [countp] in L. rewrite NI2 in L.
        simpl Ascii.eqb in *. destruct (Ascii.eqb "(" x); simpl in L |- *; lia.
    + destruct (rsplit_at "(" (c :: before)) as [[pre inner]|] eqn:E2; [|discriminate].
      apply rsplit_at_spec in E2 as [E2 _].
      pose proof (compute_nofuel s inner) as G.
      destruct (compute N builtins s inner) as [[[v d] s']| | |]; simpl; try discriminate; try tauto.
      apply IH.
      assert (CS : forall k, countp (Ascii.eqb ")") (stackvar k) = 0%nat).
      { intros. apply countp_notin. apply stackvar_notin; [discriminate|reflexivity]. }
      assert (c <> ")") as Hc by (intros X; subst; simpl in NI; tauto).
      assert (L1 : bmeas line = countp (Ascii.eqb ")") line).
      { rewrite E. cbn [app bmeas]. rewrite EQ; auto. }
      assert (L2 : countp (Ascii.eqb ")") line = S (countp (Ascii.eqb ")") after)).
      { rewrite E. rewrite countp_app. rewrite countp_notin by auto. simpl. auto. }
      assert (L3 : countp (Ascii.eqb ")") pre = 0%nat).
      { apply countp_notin. intros X. apply NI. rewrite E2. apply in_or_app; auto. }
      assert (L4 : bmeas (pre ++ stackvar (List.length (vst s')) ++ after) =
                   countp (Ascii.eqb ")") (pre ++ stackvar (List.length (vst s')) ++ after)).
      { destruct pre as [|q pre].
        destruct (stackvar_cons (List.length (vst s'))) as [dd ->]. reflexivity.
        inversion E2; subst q. cbn [app bmeas]. rewrite EQ; auto. }
      rewrite L4, !countp_app, L3, CS. lia.
  - pose proof (compute_nofuel s line) as G.
    destruct (compute N builtins s line) as [[[v d] s']| | |]; simpl; try discriminate; tauto.
Qed.

Lemma bmeas_le line : (bmeas line <= 2 * List.length line + 1)%nat.
Proof.
  pose proof (countp_le_length (Ascii.eqb "(") line). pose proof (countp_le_length (Ascii.eqb ")") line).
  unfold bmeas. destruct line as [|c r]; auto. lia. 
  destruct (Ascii.eqb c ")"); [|lia].
  destruct r as [|x r]; [lia|]. destruct (Ascii.eqb "(" x); lia.
Qed.

(** * substitution of parameters *)

Definition good_subst (Q : Prop) (x : outcome (text * list nat * list T)) (t : ptab T) : Prop :=
  match x with
  | Ok (expr, used, vs) => tok_ok (List.length vs) expr /\ (Q -> nopd expr) /\ List.length used = List.length vs /\
                           Forall (fun k => k < List.length (pval t))%nat used
  | UB => False
  | NoFuel => False
  | Err _ => True
  end.

Lemma find_used_lt k l n : find_used k l = Some n -> (n < List.length l)%nat.
Proof.
  revert n; induction l; simpl; intros n H; [discriminate|].
  destruct (_ =? _)%nat. inversion H; lia.
  destruct (find_used k l); inversion H. specialize (IHl _ eq_refl). lia.
Qed.

Lemma subst_loop_safe (Q : Prop) (t : ptab T) : List.length (pid t) = List.length (pval t) ->
  forall fuel expr used vs,
  (countp (Ascii.eqb "@") expr < fuel)%nat ->
  tok_ok (List.length vs) expr -> (Q -> nopd expr) -> List.length used = List.length vs ->
  Forall (fun k => k < List.length (pval t))%nat used ->
  good_subst Q (subst_loop fuel t expr used vs) t.
Proof.
  intros W. induction fuel as [|f IH]; intros expr used vs L K P U F; [lia|]. cbn [subst_loop].
  destruct (split_at "@" expr) as [[pre post]|] eqn:E; [|simpl; auto].
  apply split_at_spec in E as [E NI]. subst expr.
  destruct (scan_int post) as [[id rest]|] eqn:E2; [|simpl; auto].
  apply scan_int_rest in E2 as (p & E2 & _ & Nd). subst post.
  destruct (parfind t id) as [k|] eqn:E3; [|simpl; auto].
  apply tok_ok_split in K as [K1 K2]; [|reflexivity]. destruct K2 as [_ K2]. apply tok_ok_suffix in K2.
  assert (CS : forall i : nat, (countp (Ascii.eqb "@") (pre ++ stackvar i ++ rest) < f)%nat).
  { intros i. rewrite countp_app in L. cbn [countp] in L. rewrite Ascii.eqb_refl, countp_app in L. rewrite !countp_app.
    rewrite (countp_notin "@" (stackvar i)). lia. apply stackvar_notin; [discriminate|reflexivity]. }
  assert (NP : forall i, Q -> nopd (pre ++ stackvar i ++ rest)).
  { intros i q. specialize (P q).
    apply nopd_split in P as [P1 P2]; [|reflexivity]. destruct P2 as [_ P2]. apply nopd_suffix in P2.
    apply nopd_join. apply stackvar_nds. split; auto. apply nopd_join; auto. split; auto.
    apply nopd_no, stackvar_notin; [discriminate|reflexivity]. }
  destruct (find_used k used) as [i|] eqn:E4.
  - apply IH; auto. apply find_used_lt in E4. apply tok_ok_join. apply stackvar_nds. split; auto.
    apply tok_ok_join; auto. split; auto. apply stackvar_tok. lia.
  - destruct (nth_error (pval t) k) as [v|] eqn:E5.
    + apply IH; auto; rewrite ?app_length; simpl; try lia.
      * apply tok_ok_join. apply stackvar_nds. split. eapply tok_ok_mono; [|eauto]; lia.
        apply tok_ok_join; auto. split. apply stackvar_tok. lia. eapply tok_ok_mono; [|eauto]; lia.
      * apply Forall_app; split; auto. constructor; auto. apply nth_error_Some. congruence.
    + simpl. apply nth_error_None in E5. unfold parfind in E3. apply find_pos_lt in E3. lia.
Qed.

Lemma used_flags_safe (t : ptab T) used : List.length (pfree t) = List.length (pval t) ->
  Forall (fun k => k < List.length (pval t))%nat used ->
  exists fl, used_flags t used = Ok fl /\ List.length fl = List.length used.
Proof.
  intros W. induction 1; simpl. exists []; auto.
  destruct (nth_error (pfree t) x) as [b|] eqn:E.
  - destruct IHForall as (fl & E2 & L). rewrite E2. simpl. exists (b :: fl). simpl. auto.
  - apply nth_error_None in E. lia.
Qed.

Lemma init_dst_ok flags :
  List.length (init_dst N flags) = List.length flags /\
  Forall (vec_ok (List.length flags)) (init_dst N flags).
Proof.
  unfold init_dst. split. rewrite map_length, seq_length; auto.
  rewrite Forall_forall. intros d I. apply in_map_iff in I as (i & E & _).
  destruct (nth i flags false); subst; [right|left; auto].
  unfold unit_vec. rewrite map_length, seq_length; auto.
Qed.

Lemma parse_safe (t : ptab T) line : wf t ->
  (nopd line -> parse N builtins t line <> UB) /\ parse N builtins t line <> NoFuel.
Proof.
  intros (W1 & W2 & _). unfold parse.
  destruct (split_at "#" line) as [[a b]|] eqn:E. split; discriminate.
  apply split_at_none in E.
  pose proof (subst_loop_safe (nopd line) t ltac:(congruence) (S (List.length line)) line [] []) as S.
  specialize (S ltac:(pose proof (countp_le_length (Ascii.eqb "@") line); lia)
     (tok_ok_no _ _ E) ltac:(auto) eq_refl ltac:(constructor)).
  destruct (subst_loop _ t line [] []) as [[[expr used] vs]| | |]; simpl in S |- *;
    try (split; [intros _|]; discriminate); try tauto.
  destruct S as (K & P & U & F).
  destruct (used_flags_safe t used ltac:(congruence) F) as (fl & Ef & Lf). rewrite Ef. simpl.
  set (s := mkPst vs _ _ _).
  assert (I : sinv s).
  { intros D. unfold s in *; simpl in *. rewrite D. destruct (init_dst_ok fl) as [A B].
    rewrite Lf in *. split; congruence || auto. }
  pose proof (bracket_loop_fuel (2 * List.length expr + 3) s expr) as BF.
  pose proof (bmeas_le expr). specialize (BF ltac:(lia)).
  change (List.length expr + (List.length expr + 0) + 3)%nat with (2 * List.length expr + 3)%nat.
  split.
  - intros Q. pose proof (bracket_loop_safe (2 * List.length expr + 3) s expr I K (P Q)) as BS.
    destruct (bracket_loop _ _ _ s expr) as [[v d]| | |]; simpl in *; try discriminate; tauto.
  - destruct (bracket_loop _ _ _ s expr) as [[v d]| | |]; simpl in *; try discriminate; tauto.
Qed.

End Safe.
