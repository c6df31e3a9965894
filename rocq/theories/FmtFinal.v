(** The theorems on values printed with deviations. *)
From Coq Require Import Ascii String List Arith ZArith Reals Bool Lia Lra.
From Verif Require Import Base SphereModel SphereProof ParserModel ParserLex PdfModel PdfSpec DataModel DataSpec DataProof FmtModel FmtSpec FmtProof FmtGen.
Import ListNotations.
Local Open Scope R_scope.

Lemma blank_all n : Forall (fun c => c = " "%char) (blank_text n).
Proof. induction n; simpl; constructor; auto. Qed.
Lemma all_blanks b : Forall (fun c => c = " "%char) b -> blanks b.
Proof. apply Forall_impl. intros c ->. reflexivity. Qed.

Lemma field_ok f x dx : (0 < f_std_precision f)%nat -> opt_ok x -> opt_ok dx ->
  exists v s, field_is f x dx (value_std f x dx) v s.
Proof.
  intros HP Hx Hd. unfold value_std.
  set (lead := if f_leading_blank f then _ else _).
  match goal with |- context [if ?b then chars " (" ++ _ else _] => set (larger := b) end.
  set (s := if larger : bool then _ else _).
  exists (general_text 6 x), s.
  assert (value_part x (general_text 6 x)) as V.
  { destruct x as [x|]; [|reflexivity]. destruct (general_print 6 x ltac:(lia) Hx) as (n & E & Sn). exists n; auto. }
  assert (std_part (f_std_precision f) x dx s) as S.
  { destruct dx as [dx|]; cbn [std_part].
    - destruct x as [x|].
      + unfold s, larger. destruct (Rlt_dec _ _) as [L|L].
        * split. 
          -- intros _. destruct (general_print (f_std_precision f) dx HP Hd) as (n & E & Sn). exists n. rewrite <- E. auto.
          -- intros N. exfalso. apply N. exists x. split; auto. lra.
        * split; auto. intros (v & E & M). injection E as <-. exfalso. apply L. lra.
      + split; auto. intros (v & E & _). discriminate.
    - unfold s, larger. destruct x; reflexivity. }
  destruct (Z.ltb_spec (Z.of_nat (length (lead ++ general_text 6 x ++ s))) (f_width f)) as [L|L].
  - destruct (f_left f) eqn:FL.
    + exists [], (blank_text (Z.to_nat (f_width f - Z.of_nat (length (lead ++ general_text 6 x ++ s))))). fold lead.
      split. rewrite <- !app_assoc. auto. split. apply blank_all. rewrite FL. split; auto. split; auto.
      rewrite app_length. unfold blank_text at 1. rewrite repeat_length. rewrite Nat2Z.inj_add, Z2Nat.id by lia. rewrite Z.max_l by lia. lia.
    + exists (blank_text (Z.to_nat (f_width f - Z.of_nat (length (lead ++ general_text 6 x ++ s))))), []. fold lead.
      split. rewrite app_nil_r. auto. split. rewrite app_nil_r. apply blank_all. rewrite FL. split; auto. split; auto.
      rewrite app_length. unfold blank_text at 1. rewrite repeat_length. rewrite Nat2Z.inj_add, Z2Nat.id by lia. rewrite Z.max_l by lia. lia.
  - exists [], []. fold lead. split. rewrite app_nil_r. auto. split. constructor. split. destruct (f_left f); auto. split; auto.
    rewrite Z.max_r by lia. auto.
Qed.

(** relative error of P digits *)
Lemma shows_close P d n : (0 < P)%nat -> dbl_ok d -> shows_general P d n ->
  Rabs (numeral_value n - d_val d) <= 5 / 10 ^ P * Rabs (d_val d).
Proof.
  intros HP H (_ & _ & _ & _ & Z0 & G).
  destruct (Req_dec (d_mag d) 0) as [E|E].
  - destruct (Z0 E) as [-> _]. unfold d_val. rewrite E. replace (if d_neg d then -0 else 0) with 0 by (destruct (d_neg d); ring).
    rewrite Rminus_0_r, Rabs_R0. lra.
  - assert (0 < d_mag d) as M by (unfold dbl_ok in H; lra).
    assert (Rabs (d_val d) = d_mag d) as AV. { unfold d_val. destruct (d_neg d); [rewrite Rabs_Ropp|]; apply Rabs_right; lra. }
    pose proof (decade_floor _ M) as D. set (X := zfloor _) in D.
    assert (decade (d_val d) X) as DV. { unfold decade in *. rewrite AV. rewrite Rabs_right in D by lra. exact D. }
    destruct (G X DV) as (C & _). apply Rle_trans with (1 := C). rewrite AV. destruct DV as [A _]. rewrite AV in A.
    replace (1 / 2 * powerRZ 10 (X + 1 - Z.of_nat P)) with (5 / 10 ^ P * powerRZ 10 X).
    apply Rmult_le_compat_l; auto. apply Rmult_le_pos. lra. left. apply Rinv_0_lt_compat, pow_lt; lra.
    unfold Z.sub. rewrite !powerRZ_add, powerRZ_neg', <- pow_powerRZ by lra. cbn [powerRZ]. pose proof (p10 P). change (powerRZ 10 1) with (10 ^ 1). rewrite pow_1. field. auto.
Qed.
Lemma numeral_sign d n : sign_shown d n -> (match nu_sign n with Some true => true | _ => false end) = d_neg d.
Proof. unfold sign_shown. intros ->. destruct (d_neg d); auto. Qed.
Lemma numeral_dval d n : sign_shown d n -> d_val (mkDbl (d_neg d) (Rabs (numeral_value n))) = numeral_value n.
Proof.
  unfold sign_shown. intros S. unfold numeral_value, d_val. cbn [d_neg d_mag]. rewrite S, sign_bool.
  set (a := whole (nu_int n) + _). set (e := match nu_exp n with None => 1 | _ => _ end).
  assert (0 <= a). { unfold a. pose proof (whole_nonneg (nu_int n)). destruct (nu_frac n). pose proof (fraction_nonneg l). lra. lra. }
  assert (0 < e). { unfold e. destruct (nu_exp n) as [[[? ?] ?]|]. apply pz_pos. lra. }
  assert (0 <= a * e) by (apply Rmult_le_pos; lra).
  destruct (d_neg d).
  - replace (-1 * a * e) with (- (a * e)) by ring. rewrite Rabs_Ropp, Rabs_right by lra. auto.
  - replace (1 * a * e) with (a * e) by ring. rewrite Rabs_right by lra. auto.
Qed.

(** what scan_dbl finds *)
Lemma scan_numeral b d n r : blanks b -> numeral_ok n -> sign_shown d n -> stops r ->
  exists d', scan_dbl (b ++ print_numeral n ++ r) = Some (d', r) /\ d_neg d' = d_neg d /\ d_val d' = numeral_value n.
Proof.
  intros B OK S R. rewrite scan_dbl_print by auto. rewrite (numeral_sign d n S). eexists; split; [reflexivity|]. split; auto. apply numeral_dval; auto.
Qed.

Lemma std_stops P x dx s r : std_part P x dx s -> stops r -> stops (s ++ r).
Proof.
  destruct dx as [dx|]; cbn [std_part].
  - intros [A B] R. destruct (Classical_Prop.classic (matters x dx)) as [M|M].
    + destruct (A M) as (n & -> & _). simpl. repeat split; discriminate.
    + rewrite (B M). auto.
  - intros -> R. simpl. repeat split; discriminate.
Qed.
Lemma blank_stop b r : blanks b -> stops r -> stops (b ++ r).
Proof.
  intros B S. destruct b as [|c b]; auto. inversion B; subst. simpl.
  assert (starts_blank [c]) as Q by exact H1. apply blank_stops in Q. exact Q.
Qed.

Lemma reads_back f x dx r : (0 < f_std_precision f)%nat -> dbl_ok x -> opt_ok dx -> stops r ->
  exists x' t, scan_dbl (value_std f (Some x) dx ++ r) = Some (x', t ++ r) /\
  d_neg x' = d_neg x /\ Rabs (d_val x' - d_val x) <= 5 / 1000000 * Rabs (d_val x) /\
  forall d, dx = Some d -> matters (Some x) d ->
  exists d' t', scan_dbl (skipn 2 t ++ r) = Some (d', t' ++ r) /\ firstn 2 t = chars " (" /\ firstn 1 t' = chars ")" /\
  d_neg d' = d_neg d /\ Rabs (d_val d' - d_val d) <= 5 / 10 ^ f_std_precision f * Rabs (d_val d).
Proof.
  intros HP Hx Hd R. destruct (field_ok f (Some x) dx HP Hx Hd) as (v & s & b1 & b2 & E & B & LR & Len & V & S).
  apply Forall_app in B as [B1 B2]. apply all_blanks in B1, B2.
  destruct V as (n & -> & Sn). pose proof Sn as (OK & Sg & _).
  assert (blanks (b1 ++ if f_leading_blank f then [" "%char] else [])) as B3. { apply blanks_app; auto. destruct (f_leading_blank f); repeat constructor. }
  destruct (scan_numeral (b1 ++ if f_leading_blank f then [" "%char] else []) x n (s ++ b2 ++ r) B3 OK Sg) as (x' & Ex & N & Vx).
  { apply (std_stops _ _ _ _ _ S). apply blank_stop; auto. }
  exists x', (s ++ b2). rewrite E. rewrite <- !app_assoc in *. split; auto. split; auto. split.
  { rewrite Vx. pose proof (shows_close 6 x n ltac:(lia) Hx Sn) as C. replace (5 / 10 ^ 6) with (5 / 1000000) in C by (simpl; field). exact C. }
  intros d -> M. destruct S as [S _]. destruct (S M) as (m & -> & Sm). pose proof Sm as (OKm & Sgm & _).
  destruct (scan_numeral [] d m (chars ")" ++ b2 ++ r) ltac:(constructor) OKm Sgm) as (d' & Ed & Nd & Vd).
  { simpl. repeat split; discriminate. }
  exists d', (chars ")" ++ b2). split; [|split; [reflexivity|split; [reflexivity|split; auto]]].
  - change (skipn 2 ((chars " (" ++ print_numeral m ++ chars ")") ++ b2)) with ((print_numeral m ++ chars ")") ++ b2). rewrite <- !app_assoc. exact Ed.
  - rewrite Vd. apply shows_close; auto.
Qed.

Lemma columns_ok f x dx rest : (0 < f_std_precision f)%nat -> dbl_ok x -> opt_ok dx ->
  Forall (fun c : fmt * option dbl * option dbl => let '(g, y, dy) := c in f_leading_blank g = true /\ (0 < f_std_precision g)%nat /\ opt_ok y /\ opt_ok dy) rest ->
  let r := concat (map (fun c : fmt * option dbl * option dbl => let '(g, y, dy) := c in value_std g y dy) rest) in
  exists x' t, scan_dbl (value_std f (Some x) dx ++ r) = Some (x', t ++ r) /\
  d_neg x' = d_neg x /\ Rabs (d_val x' - d_val x) <= 5 / 1000000 * Rabs (d_val x).
Proof.
  intros HP Hx Hd F r.
  assert (stops r) as S.
  { destruct rest as [|[[g y] dy] rest]. exact I. inversion F; subst. destruct H1 as (LB & Pg & Hy & Hdy).
    unfold r. cbn [map concat]. destruct (field_ok g y dy Pg Hy Hdy) as (v & s & b1 & b2 & E & B & _). rewrite E, LB.
    apply Forall_app in B as [B1 _]. apply all_blanks in B1. rewrite <- !app_assoc. apply blank_stop; auto. simpl. repeat split; discriminate. }
  destruct (reads_back f x dx r HP Hx Hd S) as (x' & t & A & B & C & _). exists x', t. auto.
Qed.

(** * a value printed more coarsely than its deviation *)
Lemma round_even_is x k : Rabs (x - IZR k) < 1 / 2 -> round_even x = k.
Proof.
  intros H. apply Rabs_def2 in H as [A B].
  pose proof (round_even_spec x) as C. assert (- (1 / 2) <= IZR (round_even x) - x <= 1 / 2) as [C1 C2] by (unfold Rabs in C; destruct Rcase_abs; lra).
  assert (round_even x < k + 1)%Z. { apply lt_IZR. rewrite plus_IZR. lra. }
  assert (k - 1 < round_even x)%Z. { apply lt_IZR. rewrite minus_IZR. lra. }
  lia.
Qed.
Lemma lead_is P x X k : decade x X -> 0 < x -> Rabs (x * powerRZ 10 (Z.of_nat P - 1 - X) - IZR k) < 1 / 2 -> (k < 10 ^ Z.of_nat P)%Z -> lead P x = (k, X).
Proof.
  intros D H A B. unfold lead. rewrite (decade_unique _ _ _ (decade_floor x H) D). rewrite (round_even_is _ k A).
  destruct (Z.eqb_spec k (10 ^ Z.of_nat P)); auto. lia.
Qed.
Definition x_ex : dbl := mkDbl false (12345678 / 10000).
Definition dx_ex : dbl := mkDbl false (1 / 1000).
Lemma x_text : general_text 6 (Some x_ex) = chars "1234.57".
Proof.
  unfold general_text, general_mag. cbn [x_ex d_mag d_neg]. destruct Req_EM_T; [lra|].
  rewrite (lead_is 6 (12345678 / 10000) 3 123457).
  - vm_compute. reflexivity.
  - unfold decade. rewrite Rabs_right by lra. cbn [powerRZ]. simpl. lra.
  - lra.
  - change (Z.of_nat 6 - 1 - 3)%Z with 2%Z. change (powerRZ 10 2) with (10 ^ 2). apply Rabs_def1; simpl; lra.
  - reflexivity.
Qed.
Lemma dx_text : general_text 2 (Some dx_ex) = chars "0.001".
Proof.
  unfold general_text, general_mag. cbn [dx_ex d_mag d_neg]. destruct Req_EM_T; [lra|].
  rewrite (lead_is 2 (1 / 1000) (-3) 10).
  - vm_compute. reflexivity.
  - unfold decade. rewrite Rabs_right by lra. change (-3 + 1)%Z with (-2)%Z. unfold powerRZ. change (Pos.to_nat 3) with 3%nat. change (Pos.to_nat 2) with 2%nat. simpl. lra.
  - lra.
  - change (Z.of_nat 2 - 1 - -3)%Z with 4%Z. change (powerRZ 10 4) with (10 ^ 4). apply Rabs_def1; simpl; lra.
  - reflexivity.
Qed.
Lemma field_ex : value_std fmt_new (Some x_ex) (Some dx_ex) = chars "1234.57 (0.001)".
Proof.
  unfold value_std. cbn [fmt_new f_leading_blank f_std_precision f_width f_left]. rewrite x_text, dx_text.
  destruct Rlt_dec as [L|L]. reflexivity. exfalso. apply L. unfold d_val. cbn [x_ex dx_ex d_neg d_mag]. rewrite Rabs_right by lra. lra.
Qed.
Lemma field_ex_width : value_std (mkFmt 20 true true 2) (Some x_ex) (Some dx_ex) = chars " 1234.57 (0.001)    ".
Proof.
  unfold value_std. cbn [f_leading_blank f_std_precision f_width f_left]. rewrite x_text, dx_text.
  destruct Rlt_dec as [L|L]. reflexivity. exfalso. apply L. unfold d_val. cbn [x_ex dx_ex d_neg d_mag]. rewrite Rabs_right by lra. lra.
Qed.
Lemma coarse : exists x dx n m, matters (Some x) dx /\
  value_std fmt_new (Some x) (Some dx) = print_numeral n ++ chars " (" ++ print_numeral m ++ chars ")" /\
  numeral_ok n /\ numeral_ok m /\ 2 * numeral_value m < Rabs (numeral_value n - d_val x).
Proof.
  exists x_ex, dx_ex, (mkNum None [1;2;3;4]%nat (Some [5;7]%nat) None), (mkNum None [0]%nat (Some [0;0;1]%nat) None).
  split. { exists x_ex. split; auto. unfold d_val. cbn [x_ex dx_ex d_neg d_mag]. rewrite Rabs_right by lra. lra. }
  split. { rewrite field_ex. reflexivity. }
  split. { unfold numeral_ok; simpl; repeat split; repeat constructor; discriminate. }
  split. { unfold numeral_ok; simpl; repeat split; repeat constructor; discriminate. }
  unfold numeral_value. cbn [nu_sign nu_int nu_frac nu_exp sign_of fraction whole length]. unfold d_val. cbn [x_ex d_neg d_mag].
  simpl. rewrite Rabs_right by lra. lra.
Qed.
