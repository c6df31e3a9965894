(** Lexical lemmas for the formula parser. *)
From Coq Require Import List ZArith Ascii String Bool Lia.
From Verif Require Import Base ParamModel ParserModel.
Import ListNotations.
Local Open Scope char_scope.

(** does not start with a digit *)
Definition nds (l : text) : Prop :=
  match l with [] => True | c :: _ => is_digit c = false end.

Lemma span_digits_spec l d r : span_digits l = (d, r) ->
  l = d ++ r /\ Forall (fun c => is_digit c = true) d /\ nds r.
Proof.
  revert d r; induction l as [|c l IH]; simpl; intros d r H.
  - inversion H; subst; simpl; auto.
  - destruct (is_digit c) eqn:E.
    + destruct (span_digits l) as [d' r'] eqn:E2. inversion H; subst.
      destruct (IH _ _ eq_refl) as (A & B & C). subst l. simpl. auto.
    + inversion H; subst. simpl. auto.
Qed.

Lemma span_digits_app d r : Forall (fun c => is_digit c = true) d -> nds r ->
  span_digits (d ++ r) = (d, r).
Proof.
  induction d as [|c d IH]; simpl; intros F N.
  - destruct r as [|c r]; simpl; auto. simpl in N. rewrite N. auto.
  - inversion F; subst. rewrite H1, IH; auto.
Qed.

Lemma nds_cons c l : is_digit c = false -> nds (c :: l).
Proof. auto. Qed.

(** * decimal printing *)

Lemma digit_of_is_digit z : (0 <= z < 10)%Z -> is_digit (digit_of z) = true.
Proof.
  intros H. assert (z = 0 \/ z = 1 \/ z = 2 \/ z = 3 \/ z = 4 \/ z = 5 \/ z = 6 \/ z = 7 \/ z = 8 \/ z = 9)%Z as K by lia.
  repeat (destruct K as [K|K]; [subst; reflexivity|]). subst; reflexivity.
Qed.

Lemma digit_val_of z : (0 <= z < 10)%Z -> digit_val (digit_of z) = z.
Proof.
  intros H. assert (z = 0 \/ z = 1 \/ z = 2 \/ z = 3 \/ z = 4 \/ z = 5 \/ z = 6 \/ z = 7 \/ z = 8 \/ z = 9)%Z as K by lia.
  repeat (destruct K as [K|K]; [subst; reflexivity|]). subst; reflexivity.
Qed.

Definition dval (a : Z) (d : text) : Z := fold_left (fun a c => (10 * a + digit_val c)%Z) d a.

Lemma digits_val_dval d : digits_val d = dval 0 d.
Proof. reflexivity. Qed.

Lemma dec_digits_spec fuel n acc : (0 <= n < Z.of_nat fuel)%Z ->
  exists d, dec_digits fuel n acc = d ++ acc /\ d <> [] /\
    Forall (fun c => is_digit c = true) d /\ digits_val d = n.
Proof.
  revert n acc; induction fuel as [|f IH]; intros n acc H. lia.
  simpl. pose proof (Z.mod_pos_bound n 10 ltac:(lia)).
  destruct (Z.ltb_spec n 10).
  - exists [digit_of (n mod 10)]. repeat split; auto. discriminate.
    constructor; auto. apply digit_of_is_digit; auto.
    cbn. rewrite digit_val_of by auto. rewrite Z.mod_small by lia. reflexivity.
  - assert (0 <= n / 10 < Z.of_nat f)%Z as HB.
    { split. apply Z.div_pos; lia. apply Z.div_lt_upper_bound; lia. }
    destruct (IH (n/10)%Z (digit_of (n mod 10) :: acc) HB) as (d & E & Hn & F & V).
    exists (d ++ [digit_of (n mod 10)]). rewrite E. rewrite <- app_assoc. simpl.
    split; auto. split. destruct d; discriminate.
    split. apply Forall_app; split; auto. constructor; auto. apply digit_of_is_digit; auto.
    rewrite digits_val_dval in *. unfold dval in *. rewrite fold_left_app. rewrite V. cbn [fold_left].
    rewrite digit_val_of by auto. pose proof (Z.div_mod n 10 ltac:(lia)). lia.
Qed.

Lemma stackvar_spec i : exists d, stackvar i = "#" :: d /\ d <> [] /\
    Forall (fun c => is_digit c = true) d /\ digits_val d = Z.of_nat i.
Proof.
  unfold stackvar. destruct (dec_digits_spec (S i) (Z.of_nat i) [] ltac:(lia)) as (d & E & H).
  rewrite app_nil_r in E. exists d. rewrite E. auto.
Qed.

Lemma digit_not_space c : is_digit c = true -> is_space c = false.
Proof.
  unfold is_digit, is_space. intros H. apply andb_prop in H as [A B].
  apply Nat.leb_le in A, B. apply orb_false_intro. apply Nat.eqb_neq; lia.
  apply andb_false_iff. right. apply Nat.leb_gt. lia.
Qed.

Lemma digit_neq c x : is_digit c = true -> is_digit x = false -> Ascii.eqb c x = false.
Proof. intros. destruct (Ascii.eqb_spec c x); auto. congruence. Qed.

Lemma skipws_digit c l : is_digit c = true -> skipws (c :: l) = c :: l.
Proof. intros H. simpl. rewrite (digit_not_space _ H). auto. Qed.

Lemma sign_split_digit c l : is_digit c = true -> sign_split (c :: l) = (false, c :: l).
Proof.
  intros H. simpl. rewrite !(digit_neq c) by (auto; reflexivity). reflexivity.
Qed.

Lemma sign_split_suffix l n r : sign_split l = (n, r) -> exists w, l = w ++ r.
Proof.
  destruct l as [|c l]; simpl; intros H. inversion H; exists []; auto.
  destruct (Ascii.eqb c "-"); [inversion H; exists [c]; auto|].
  destruct (Ascii.eqb c "+"); inversion H. exists [c]; auto. exists []; auto.
Qed.

Lemma skipws_suffix l : exists w, l = w ++ skipws l.
Proof.
  induction l; simpl. exists []; auto. destruct (is_space a).
  destruct IHl as [w E]. exists (a :: w). simpl. congruence. exists []; auto.
Qed.

Lemma digits_val_nonneg d : Forall (fun c => is_digit c = true) d -> (0 <= digits_val d)%Z.
Proof.
  rewrite digits_val_dval.
  assert (forall l a, (0 <= a)%Z -> Forall (fun c => is_digit c = true) l -> (0 <= dval a l)%Z).
  { induction l; simpl; intros; auto. inversion H0; subst. apply IHl; auto.
    unfold is_digit in H3. apply andb_prop in H3 as [A B]. apply Nat.leb_le in A.
    unfold digit_val. destruct a0; lia. }
  intros F; apply H; [lia|auto].
Qed.

(** scanning an unsigned digit string *)
Lemma scan_int_digits d r : d <> [] -> Forall (fun c => is_digit c = true) d -> nds r ->
  scan_int (d ++ r) =
    if (digits_val d <=? 2147483647)%Z then Some (digits_val d, r) else None.
Proof.
  intros Hn F N. unfold scan_int. destruct d as [|c d]; [congruence|].
  inversion F; subst. cbn [app]. rewrite skipws_digit, sign_split_digit by auto.
  change (c :: d ++ r) with ((c :: d) ++ r).
  rewrite span_digits_app by auto. pose proof (digits_val_nonneg _ F).
  destruct (Z.leb_spec (-2147483648) (digits_val (c :: d))); try lia. reflexivity.
Qed.

Lemma scan_int_rest l i r : scan_int l = Some (i, r) ->
  exists c, l = c ++ r /\ c <> [] /\ nds r.
Proof.
  unfold scan_int. intros H.
  destruct (skipws_suffix l) as [w E].
  destruct (sign_split (skipws l)) as [neg m] eqn:E1.
  apply sign_split_suffix in E1 as [w2 E2].
  destruct (span_digits m) as [d r'] eqn:Ed. apply span_digits_spec in Ed as (A & B & C).
  destruct d as [|c d]; [discriminate|]. 
  destruct (_ && _); inversion H; subst r'.
  exists (w ++ w2 ++ c :: d). rewrite <- !app_assoc. simpl in *. split. congruence.
  split; auto. destruct w, w2; discriminate.
Qed.

Lemma scan_exp_rest l e r : nds l -> scan_exp l = Some (e, r) -> exists c, l = c ++ r /\ nds r.
Proof.
  destruct l as [|c l]; simpl; intros N H. inversion H; exists []; auto.
  destruct (Ascii.eqb c "e" || Ascii.eqb c "E").
  - destruct (sign_split l) as [n m] eqn:E1. apply sign_split_suffix in E1 as [w ->].
    destruct (span_digits m) as [d r'] eqn:Ed. apply span_digits_spec in Ed as (A & B & C).
    destruct d; [discriminate|]. inversion H; subst r'. exists (c :: w ++ a :: d).
    simpl. rewrite <- app_assoc. subst m. split; auto.
  - inversion H; subst. exists []; auto.
Qed.

Lemma scan_frac_rest l d r : nds l -> scan_frac l = (d, r) ->
  exists c, l = c ++ d ++ r /\ Forall (fun c => is_digit c = true) d /\ nds r.
Proof.
  destruct l as [|c l]; simpl; intros N H. inversion H; exists []; simpl; auto.
  destruct (Ascii.eqb_spec c ".").
  - apply span_digits_spec in H as (A & B & C). exists [c]. subst. auto.
  - inversion H; subst. exists []; simpl; auto.
Qed.

Lemma scan_float_rest l m e r : scan_float l = Some (m, e, r) ->
  exists c, l = c ++ r /\ c <> [] /\ nds r.
Proof.
  unfold scan_float. destruct (span_digits l) as [d1 r1] eqn:E1.
  apply span_digits_spec in E1 as (A & B & C). intros H.
  destruct (scan_frac r1) as [d2 r2] eqn:E2. apply scan_frac_rest in E2 as (w & E2 & F2 & N2); auto.
  destruct (d1 ++ d2) as [|x y] eqn:Ed; [discriminate|].
  destruct (scan_exp r2) as [[e' r3]|] eqn:E3; inversion H; subst r3.
  apply scan_exp_rest in E3 as (w3 & E3 & N3); auto.
  exists (d1 ++ w ++ d2 ++ w3). rewrite <- !app_assoc. split. congruence.
  split; auto. destruct d1, w, d2; discriminate.
Qed.

Lemma split_at_spec c l a b : split_at c l = Some (a, b) -> l = a ++ c :: b /\ ~ In c a.
Proof.
  revert a b; induction l as [|h l IH]; simpl; intros a b H; [discriminate|].
  destruct (Ascii.eqb_spec h c). inversion H; subst; auto.
  destruct (split_at c l) as [[a' b']|]; inversion H; subst.
  destruct (IH _ _ eq_refl); subst. simpl. intuition.
Qed.

Lemma split_at_none c l : split_at c l = None <-> ~ In c l.
Proof.
  induction l as [|h l IH]; simpl. tauto.
  destruct (Ascii.eqb_spec h c). split; [discriminate|intuition].
  destruct (split_at c l) as [[a b]|]. split; [discriminate|].
  intros; exfalso. destruct IH as [_ IH]. specialize (IH ltac:(tauto)). discriminate.
  tauto.
Qed.

Lemma split_at_app c a b : ~ In c a -> split_at c (a ++ c :: b) = Some (a, b).
Proof.
  induction a as [|h a IH]; simpl; intros H.
  - rewrite Ascii.eqb_refl; auto.
  - destruct (Ascii.eqb_spec h c); [tauto|]. rewrite IH; auto.
Qed.

Lemma rsplit_at_spec c l a b : rsplit_at c l = Some (a, b) -> l = a ++ c :: b /\ ~ In c b.
Proof.
  revert a b; induction l as [|h l IH]; simpl; intros a b H; [discriminate|].
  destruct (rsplit_at c l) as [[a' b']|] eqn:E.
  - inversion H; subst. destruct (IH _ _ eq_refl); subst. auto.
  - destruct (Ascii.eqb_spec h c); inversion H; subst. split; auto.
    clear - E. revert E. induction b; simpl; auto. intros.
    destruct (rsplit_at c b) as [[]|] eqn:E2; [discriminate|].
    destruct (Ascii.eqb_spec a c); [discriminate|]. intuition.
Qed.

Lemma rsplit_at_none c l : rsplit_at c l = None <-> ~ In c l.
Proof.
  induction l as [|h l IH]; simpl. tauto.
  destruct (rsplit_at c l) as [[a b]|]. split; [discriminate|].
  intros; exfalso. destruct IH as [_ IH]. specialize (IH ltac:(tauto)). discriminate.
  destruct (Ascii.eqb_spec h c). split; [discriminate|intuition]. tauto.
Qed.

Lemma rsplit_at_app c a b : ~ In c b -> rsplit_at c (a ++ c :: b) = Some (a, b).
Proof.
  intros H. induction a as [|h a IH]; simpl.
  - apply rsplit_at_none in H. rewrite H, Ascii.eqb_refl. auto.
  - rewrite IH; auto.
Qed.

(** counting characters *)
Fixpoint countp (P : ascii -> bool) (l : text) : nat :=
  match l with [] => 0 | c :: r => (if P c then 1 else 0) + countp P r end.

Lemma countp_app P a b : countp P (a ++ b) = (countp P a + countp P b)%nat.
Proof. induction a; simpl; auto. rewrite IHa. lia. Qed.

Lemma countp_le_length P l : (countp P l <= List.length l)%nat.
Proof. induction l; simpl; auto. destruct (P a); lia. Qed.

Lemma digit_not_op c : is_digit c = true -> is_op c = false.
Proof.
  intros H. unfold is_op. rewrite !(digit_neq c) by (auto; reflexivity). reflexivity.
Qed.

Lemma countp_digits P d : (forall c, is_digit c = true -> P c = false) ->
  Forall (fun c => is_digit c = true) d -> countp P d = 0%nat.
Proof. intros HP; induction 1; simpl; auto. rewrite HP; auto. Qed.

Lemma obind_ok {A B} (x : outcome A) (f : A -> outcome B) b :
  obind x f = Ok b -> exists a, x = Ok a /\ f a = Ok b.
Proof. destruct x; simpl; try discriminate. eauto. Qed.

Lemma obind_nf {A B} (x : outcome A) (f : A -> outcome B) :
  x <> NoFuel -> (forall a, f a <> NoFuel) -> obind x f <> NoFuel.
Proof. destruct x; simpl; auto; discriminate. Qed.

Lemma omap_nf {A B} (f : A -> B) (x : outcome A) : x <> NoFuel -> omap f x <> NoFuel.
Proof. destruct x; simpl; auto; discriminate. Qed.
