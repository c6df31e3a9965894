(** Lemmas for printed numbers. *)
From Coq Require Import Ascii String List Arith ZArith Reals Bool Lia Lra.
From Verif Require Import Base SphereModel SphereProof ParserModel ParserLex PdfModel PdfSpec DataModel DataSpec DataProof FmtModel FmtSpec.
Import ListNotations.
Local Open Scope R_scope.

(** * rounding *)
Lemma round_even_spec x : Rabs (IZR (round_even x) - x) <= 1 / 2.
Proof.
  unfold round_even. pose proof (zfloor_spec x) as [A B]. set (f := zfloor x) in *.
  destruct Rlt_dec. rewrite Rabs_left1 by lra. lra.
  destruct Rlt_dec. rewrite plus_IZR. rewrite Rabs_right by lra. lra.
  destruct (Z.even f); [|rewrite plus_IZR]. rewrite Rabs_left1 by lra; lra. rewrite Rabs_right by lra. lra.
Qed.
Lemma zfloor_IZR k : zfloor (IZR k) = k.
Proof. pose proof (zfloor_spec (IZR k)) as [A B]. apply le_IZR in A. rewrite <- plus_IZR in B. apply lt_IZR in B. lia. Qed.
Lemma round_even_IZR k : round_even (IZR k) = k.
Proof. unfold round_even. rewrite zfloor_IZR. destruct Rlt_dec; auto. lra. Qed.
Lemma round_even_le x k : x <= IZR k -> (round_even x <= k)%Z.
Proof.
  intros H. unfold round_even. pose proof (zfloor_spec x) as [A B]. set (f := zfloor x) in *.
  assert (f <= k)%Z as C. { apply le_IZR. lra. }
  destruct (Z.eq_dec f k) as [->|N]. destruct Rlt_dec; try lia. lra.
  assert (f + 1 <= k)%Z by lia.
  destruct Rlt_dec; try lia. destruct Rlt_dec; try lia. destruct (Z.even f); lia.
Qed.
Lemma round_even_ge x k : IZR k <= x -> (k <= round_even x)%Z.
Proof.
  intros H. unfold round_even. pose proof (zfloor_spec x) as [A B]. set (f := zfloor x) in *.
  assert (k <= f)%Z as C. { apply Z.lt_succ_r, lt_IZR. unfold Z.succ. rewrite plus_IZR. lra. }
  destruct Rlt_dec; try lia. destruct Rlt_dec; try lia. destruct (Z.even f); lia.
Qed.

(** * digits *)
Lemma whole_z_app a b : whole_z (a ++ b) = (whole_z a * 10 ^ Z.of_nat (length b) + whole_z b)%Z.
Proof.
  induction a as [|k a IH]; cbn [app whole_z]; [lia|]. rewrite IH, app_length, Nat2Z.inj_add, Z.pow_add_r by lia. ring.
Qed.
Lemma whole_z_bound d : Forall (fun k => (k < 10)%nat) d -> (0 <= whole_z d < 10 ^ Z.of_nat (length d))%Z.
Proof.
  induction 1 as [|k d H F IH]; cbn [whole_z length]. simpl; lia.
  rewrite Nat2Z.inj_succ, Z.pow_succ_r by lia. nia.
Qed.
Lemma digit_of_pd z : (0 <= z < 10)%Z -> digit_of z = ascii_of_nat (48 + Z.to_nat z).
Proof. intros H. unfold digit_of. f_equal. lia. Qed.
Lemma dec_digits_pd fuel n acc : (0 <= n < 2 ^ Z.of_nat fuel)%Z -> (0 < fuel)%nat ->
  exists d, dec_digits fuel n acc = print_digits d ++ acc /\ Forall (fun k => (k < 10)%nat) d /\ whole_z d = n /\ plain_int d.
Proof.
  revert n acc; induction fuel as [|f IH]; intros n acc H F. lia.
  cbn [dec_digits]. pose proof (Z.mod_pos_bound n 10 ltac:(lia)) as M.
  destruct (Z.ltb_spec n 10).
  - exists [Z.to_nat n]. rewrite Z.mod_small by lia. rewrite digit_of_pd by lia. split; [reflexivity|].
    split. constructor; auto. lia. split. cbn [whole_z length]. simpl (10 ^ Z.of_nat 0)%Z. lia.
    destruct (Z.eq_dec n 0) as [->|N]. left; auto. right. exists (Z.to_nat n), []. split; auto. lia.
  - assert (0 < f)%nat as Hf. { destruct f; [|lia]. change (2 ^ Z.of_nat 1)%Z with 2%Z in H. lia. }
    assert (0 <= n / 10 < 2 ^ Z.of_nat f)%Z as HB.
    { split. apply Z.div_pos; lia. apply Z.div_lt_upper_bound. lia. rewrite Nat2Z.inj_succ, Z.pow_succ_r in H by lia. lia. }
    destruct (IH (n / 10)%Z (digit_of (n mod 10) :: acc) HB Hf) as (d & E & Fd & V & P).
    exists (d ++ [Z.to_nat (n mod 10)]). rewrite E. split.
    { unfold print_digits. rewrite map_app, <- app_assoc. cbn [map app]. rewrite digit_of_pd by auto. auto. }
    split. apply Forall_app; split; auto. constructor; auto. lia.
    split. rewrite whole_z_app, V. cbn [whole_z length]. change (10 ^ Z.of_nat 1)%Z with 10%Z. change (10 ^ Z.of_nat 0)%Z with 1%Z.
    rewrite Z2Nat.id by lia. pose proof (Z.div_mod n 10 ltac:(lia)). lia.
    destruct P as [->|(k & r & -> & N)].
    + exfalso. cbn in V. pose proof (Z.div_mod n 10 ltac:(lia)). lia.
    + right. exists k, (r ++ [Z.to_nat (n mod 10)]). auto.
Qed.
Lemma dec_text_pd n : (0 <= n)%Z -> exists d, dec_text n = print_digits d /\ Forall (fun k => (k < 10)%nat) d /\ whole_z d = n /\ plain_int d.
Proof.
  intros H. unfold dec_text. destruct (dec_digits_pd (S (Z.to_nat (Z.log2 n))) n []) as (d & E & R).
  - split; auto. rewrite Nat2Z.inj_succ, Z2Nat.id by apply Z.log2_nonneg.
    destruct (Z.eq_dec n 0) as [->|]. simpl; lia. apply Z.log2_spec. lia.
  - lia.
  - exists d. rewrite E, app_nil_r. auto.
Qed.
Lemma low_digits_pd p n : (0 <= n)%Z -> exists f, low_digits p n = print_digits f /\ Forall (fun k => (k < 10)%nat) f /\ length f = p /\
  whole_z f = (n mod 10 ^ Z.of_nat p)%Z.
Proof.
  revert n; induction p as [|q IH]; intros n H.
  - exists []. simpl. rewrite Z.mod_1_r. auto.
  - destruct (IH (n / 10)%Z ltac:(apply Z.div_pos; lia)) as (f & E & F & L & W).
    pose proof (Z.mod_pos_bound n 10 ltac:(lia)) as M.
    exists (f ++ [Z.to_nat (n mod 10)]). cbn [low_digits]. rewrite E, digit_of_pd by auto.
    split. unfold print_digits. rewrite map_app. auto.
    split. apply Forall_app; split; auto. constructor; auto. lia.
    split. rewrite app_length; simpl; lia.
    rewrite whole_z_app, W. cbn [whole_z length]. change (10 ^ Z.of_nat 1)%Z with 10%Z. change (10 ^ Z.of_nat 0)%Z with 1%Z.
    rewrite Z2Nat.id by lia. rewrite Nat2Z.inj_succ, Z.pow_succ_r by lia.
    rewrite Z.rem_mul_r by (try lia; apply Z.pow_nonzero; lia). lia.
Qed.
Lemma plain_ne d : plain_int d -> d <> [].
Proof. intros [->|(k & r & -> & _)]; discriminate. Qed.
Lemma fraction_eq f : fraction f = IZR (whole_z f) / 10 ^ length f.
Proof. rewrite whole_z_R, <- fraction_whole. field. apply p10. Qed.
Lemma pow10_Z p : IZR (10 ^ Z.of_nat p) = 10 ^ p.
Proof. rewrite <- pow_IZR. auto. Qed.
Lemma parts_value i f p k : (0 <= k)%Z -> length f = p -> whole_z i = (k / 10 ^ Z.of_nat p)%Z -> whole_z f = (k mod 10 ^ Z.of_nat p)%Z ->
  whole i + fraction f = IZR k / 10 ^ p.
Proof.
  intros H L A B. rewrite fraction_eq, L, B, <- whole_z_R, A. pose proof (p10 p).
  assert (10 ^ Z.of_nat p <> 0)%Z as Z0 by (apply Z.pow_nonzero; lia).
  rewrite (Z.div_mod k (10 ^ Z.of_nat p) Z0) at 3. rewrite plus_IZR, mult_IZR, pow10_Z. field. auto.
Qed.

(** * reading a number that something else follows *)
Lemma stops_nds r : stops r -> nds r.
Proof. destruct r; simpl; tauto. Qed.
Lemma blank_stops r : starts_blank r -> stops r.
Proof.
  intros H. pose proof (starts_nds _ H). destruct r as [|c r]; simpl in *; auto.
  split; auto. repeat split; intros ->; discriminate.
Qed.
Lemma scan_exp_stops e r : stops r ->
  match e with None => True | Some (_, _, d) => Forall (fun k => (k < 10)%nat) d /\ d <> [] end ->
  scan_exp (exp_text e ++ r) = Some (match e with None => 0%Z | Some (_, s, d) => (sign_of s * whole_z d)%Z end, r).
Proof.
  intros B H. destruct e as [[[up s] d]|].
  - destruct H as [F N]. cbn [exp_text app]. unfold scan_exp.
    replace (Ascii.eqb (if up then "E"%char else "e"%char) "e" || Ascii.eqb (if up then "E"%char else "e"%char) "E")%bool with true by (destruct up; auto).
    rewrite <- app_assoc, sign_print.
    + rewrite span_digits_app by (auto using pd_digit, stops_nds).
      destruct (print_digits d) as [|c q] eqn:E. destruct d; [congruence|discriminate].
      rewrite <- E, digits_val_pd by auto. do 3 f_equal. destruct s as [[|]|]; cbn [sign_of]; lia.
    + pose proof (pd_digit _ F). destruct (print_digits d) as [|c q] eqn:E. destruct d; [congruence|discriminate].
      inversion H; subst. simpl. destruct (digit_not _ H2) as (?&?&_). auto.
  - simpl. destruct r as [|c r]; simpl; auto. destruct B as (_ & _ & B1 & B2).
    destruct (Ascii.eqb_spec c "e"); [congruence|]. destruct (Ascii.eqb_spec c "E"); [congruence|]. auto.
Qed.
Lemma exp_stops e r : stops r -> nds (exp_text e ++ r) /\ match exp_text e ++ r with [] => True | c :: _ => c <> "."%char end.
Proof.
  intros B. destruct e as [[[up s] d]|]; simpl.
  - destruct up; split; auto; discriminate.
  - split. apply stops_nds; auto. destruct r; auto. apply B.
Qed.
Lemma scan_float_stops i f e r : stops r ->
  Forall (fun k => (k < 10)%nat) i -> Forall (fun k => (k < 10)%nat) (match f with None => [] | Some d => d end) ->
  (i ++ match f with None => [] | Some d => d end <> []) ->
  match e with None => True | Some (_, _, d) => Forall (fun k => (k < 10)%nat) d /\ d <> [] end ->
  scan_float (print_digits i ++ (match f with None => [] | Some d => "."%char :: print_digits d end) ++ exp_text e ++ r) =
  Some (whole_z (i ++ match f with None => [] | Some d => d end),
        (match e with None => 0%Z | Some (_, s, d) => (sign_of s * whole_z d)%Z end - Z.of_nat (length (match f with None => [] | Some d => d end)))%Z, r).
Proof.
  intros B Fi Ff Ne He. unfold scan_float. pose proof (exp_stops e r B) as [N D].
  rewrite span_digits_app; [|apply pd_digit; auto|destruct f; simpl; auto].
  assert (scan_frac ((match f with None => [] | Some d => "."%char :: print_digits d end) ++ exp_text e ++ r) =
          (print_digits (match f with None => [] | Some d => d end), exp_text e ++ r)) as ->.
  { destruct f as [d|].
    - cbn [app scan_frac]. rewrite Ascii.eqb_refl. apply span_digits_app; auto using pd_digit.
    - cbn [app print_digits map]. unfold scan_frac. revert D. destruct (exp_text e ++ r) as [|c q]; auto. intros D. destruct (Ascii.eqb_spec c "."); [congruence|reflexivity]. }
  unfold print_digits at 1 2. rewrite <- map_app. fold (print_digits (i ++ match f with None => [] | Some d => d end)).
  destruct (print_digits (i ++ _)) as [|c q] eqn:E.
  - destruct (i ++ _); [congruence|discriminate].
  - rewrite scan_exp_stops by auto. rewrite <- E, digits_val_pd by (apply Forall_app; auto).
    unfold print_digits. rewrite map_length. auto.
Qed.
Lemma skip_numeral n r : numeral_ok n -> skipws (print_numeral n ++ r) = print_numeral n ++ r.
Proof. intros OK. destruct (print_head _ OK) as (c & q & E & Sp & _). rewrite E. simpl. rewrite Sp. auto. Qed.
Lemma whole_nonneg d : 0 <= whole d.
Proof. induction d; cbn [whole]. lra. pose proof (pos_INR a). assert (0 < 10 ^ length d) by (apply pow_lt; lra). nra. Qed.
Lemma fraction_nonneg d : 0 <= fraction d.
Proof. induction d; cbn [fraction]. lra. pose proof (pos_INR a). lra. Qed.
Lemma scan_dbl_print b n r : blanks b -> numeral_ok n -> stops r ->
  scan_dbl (b ++ print_numeral n ++ r) =
  Some (mkDbl (match nu_sign n with Some true => true | _ => false end) (Rabs (numeral_value n)), r).
Proof.
  intros B OK S. unfold scan_dbl. rewrite skipws_blanks by auto. rewrite skip_numeral by auto. destruct OK as (Fi & Ff & Ne & He).
  rewrite print_split, <- !app_assoc.
  rewrite sign_print.
  - rewrite scan_float_stops by auto. do 3 f_equal. unfold dec_val, numeral_value.
    rewrite whole_z_R, whole_app.
    unfold Z.sub. rewrite powerRZ_add by lra. rewrite powerRZ_neg', <- pow_powerRZ.
    pose proof (whole_nonneg (nu_int n)) as W.
    assert (match nu_exp n with None => 1 | Some (_, s, d) => powerRZ 10 (sign_of s * whole_z d) end =
            powerRZ 10 (match nu_exp n with None => 0 | Some (_, s, d) => sign_of s * whole_z d end)) as ->.
    { destruct (nu_exp n) as [[[up s] ds]|]; auto. }
    set (e := powerRZ 10 _). assert (0 < e) as He0 by (apply powerRZ_lt; lra).
    set (ff := match nu_frac n with None => 0 | Some d => fraction d end). assert (0 <= ff). { unfold ff. destruct (nu_frac n). apply fraction_nonneg. lra. }
    assert (Rabs (IZR (sign_of (nu_sign n)) * (whole (nu_int n) + ff) * e) = (whole (nu_int n) + ff) * e) as ->.
    { rewrite !Rabs_mult, (Rabs_right e), (Rabs_right (whole (nu_int n) + ff)) by lra.
      replace (Rabs (IZR (sign_of (nu_sign n)))) with 1. ring. destruct (nu_sign n) as [[|]|]; cbn [sign_of]; [rewrite Rabs_left by lra|rewrite Rabs_right by lra|rewrite Rabs_right by lra]; ring. }
    unfold ff. destruct (nu_frac n) as [d|].
    + rewrite <- (fraction_whole d). pose proof (p10 (length d)). field; auto.
    + cbn [length pow whole]. field.
  - pose proof (pd_digit _ Fi) as P. destruct (print_digits (nu_int n)) as [|c q] eqn:E; simpl.
    + destruct (nu_int n); [|discriminate]. destruct (nu_frac n); simpl in *; [|congruence]. split; discriminate.
    + inversion P; subst. destruct (digit_not _ H1) as (?&?&?). auto.
Qed.

(** * fixed format *)
Definition kof (p : nat) (d : dbl) : Z := round_even (d_mag d * 10 ^ p).
Lemma kof_nonneg p d : dbl_ok d -> (0 <= kof p d)%Z.
Proof. intros H. apply round_even_ge. apply Rmult_le_pos; auto. apply pow_le; lra. Qed.
Lemma fixed_print p d : dbl_ok d -> exists n, fixed_text p d = print_numeral n /\ shows_fixed p d n /\
  Rabs (numeral_value n) = IZR (kof p d) / 10 ^ p.
Proof.
  intros H. pose proof (kof_nonneg p d H) as K. unfold fixed_text. fold (kof p d). set (k := kof p d) in *.
  assert (0 < 10 ^ Z.of_nat p)%Z as Z0 by (apply Z.pow_pos_nonneg; lia).
  destruct (dec_text_pd (k / 10 ^ Z.of_nat p)) as (i & Ei & Fi & Wi & Pi). { apply Z.div_pos; lia. }
  destruct (low_digits_pd p (k mod 10 ^ Z.of_nat p)) as (f & Ef & Ff & Lf & Wf). { apply Z.mod_pos_bound; lia. }
  rewrite Z.mod_mod in Wf by lia.
  pose proof (parts_value i f p k K Lf Wi Wf) as V.
  pose (n := mkNum (if d_neg d then Some true else None) i (match p with O => None | S _ => Some f end) None).
  assert (numeral_value n = IZR (sign_of (nu_sign n)) * (IZR k / 10 ^ p)) as Vn.
  { unfold numeral_value. rewrite <- V. cbn [nu_exp nu_int nu_frac n]. destruct p; [|ring]. destruct f; [|discriminate]. cbn [fraction]. ring. }
  assert (0 <= IZR k / 10 ^ p) as Q0. { apply Rmult_le_pos. apply IZR_le; auto. left. apply Rinv_0_lt_compat, pow_lt; lra. }
  exists n. split; [|split].
  - unfold fixed_mag. rewrite Ei, Ef. unfold print_numeral. cbn [nu_exp nu_int nu_frac nu_sign n]. rewrite app_nil_r.
    f_equal. destruct (d_neg d); auto. f_equal. destruct p; auto.
  - split; [|split; [|split; [|split; [|split]]]]; cbn [nu_exp nu_int nu_frac nu_sign n]; auto.
    + repeat split; cbn [nu_exp nu_int nu_frac nu_sign n]; auto. destruct p; auto.
      pose proof (plain_ne _ Pi). destruct i; [congruence|discriminate].
    + reflexivity.
    + destruct p; auto.
    + rewrite Vn. cbn [nu_sign n]. unfold d_val. pose proof (round_even_spec (d_mag d * 10 ^ p)) as RE. fold (kof p d) in RE. fold k in RE.
      assert (0 < 10 ^ p) as P0 by (apply pow_lt; lra).
      assert (Rabs (IZR k / 10 ^ p - d_mag d) <= 1 / 2 * / 10 ^ p) as G.
      { replace (IZR k / 10 ^ p - d_mag d) with ((IZR k - d_mag d * 10 ^ p) * / 10 ^ p) by (field; lra).
        rewrite Rabs_mult. rewrite (Rabs_right (/ 10 ^ p)). apply Rmult_le_compat_r; auto. left; apply Rinv_0_lt_compat; auto. left; apply Rinv_0_lt_compat; auto. }
      destruct (d_neg d); cbn [sign_of].
      * replace (-1 * (IZR k / 10 ^ p) - - d_mag d) with (- (IZR k / 10 ^ p - d_mag d)) by ring. rewrite Rabs_Ropp. auto.
      * replace (1 * (IZR k / 10 ^ p) - d_mag d) with (IZR k / 10 ^ p - d_mag d) by ring. auto.
  - rewrite Vn, Rabs_mult, (Rabs_right (IZR k / 10 ^ p)) by lra.
    replace (Rabs (IZR (sign_of (nu_sign n)))) with 1. ring. cbn [nu_sign n]. destruct (d_neg d); cbn [sign_of]; [rewrite Rabs_left by lra|rewrite Rabs_right by lra]; ring.
Qed.
(** the number read back *)
Definition rnd (p : nat) (d : dbl) : dbl := mkDbl (d_neg d) (IZR (kof p d) / 10 ^ p).
Lemma scan_fixed b p d r : dbl_ok d -> blanks b -> stops r -> scan_dbl (b ++ fixed_text p d ++ r) = Some (rnd p d, r).
Proof.
  intros H B S. destruct (fixed_print p d H) as (n & E & (OK & Sg & _) & V). rewrite E, scan_dbl_print by auto.
  unfold rnd. rewrite V. unfold sign_shown in Sg. rewrite Sg. destruct (d_neg d); auto.
Qed.
Lemma rnd_ok p d : dbl_ok d -> dbl_ok (rnd p d).
Proof.
  intros H. unfold dbl_ok, rnd. cbn [d_mag]. apply Rmult_le_pos. apply IZR_le, kof_nonneg; auto. left. apply Rinv_0_lt_compat, pow_lt; lra.
Qed.
Lemma kof_rnd p d : kof p (rnd p d) = kof p d.
Proof.
  unfold kof at 1. unfold rnd. cbn [d_mag]. replace (IZR (kof p d) / 10 ^ p * 10 ^ p) with (IZR (kof p d)). apply round_even_IZR. field. apply p10.
Qed.
Lemma rnd_rnd p d : rnd p (rnd p d) = rnd p d.
Proof. unfold rnd at 1. rewrite kof_rnd. auto. Qed.
Lemma fixed_rnd p d : fixed_text p (rnd p d) = fixed_text p d.
Proof. unfold fixed_text. fold (kof p (rnd p d)). rewrite kof_rnd. auto. Qed.
Lemma rnd_close p d : Rabs (d_mag (rnd p d) - d_mag d) <= 1 / 2 * / 10 ^ p.
Proof.
  unfold rnd. cbn [d_mag]. pose proof (round_even_spec (d_mag d * 10 ^ p)) as RE. fold (kof p d) in RE.
  assert (0 < 10 ^ p) as P0 by (apply pow_lt; lra).
  replace (IZR (kof p d) / 10 ^ p - d_mag d) with ((IZR (kof p d) - d_mag d * 10 ^ p) * / 10 ^ p) by (field; lra).
  rewrite Rabs_mult. rewrite (Rabs_right (/ 10 ^ p)). apply Rmult_le_compat_r; auto. left; apply Rinv_0_lt_compat; auto. left; apply Rinv_0_lt_compat; auto.
Qed.

(** * integers *)
Lemma scan_int_text b z r : blanks b -> nds r -> (-2147483648 <= z <= 2147483647)%Z -> scan_int (b ++ int_text z ++ r) = Some (z, r).
Proof.
  intros B N H. destruct (dec_text_pd (Z.abs z) ltac:(lia)) as (i & Ei & Fi & Wi & Pi).
  unfold scan_int. rewrite skipws_blanks by auto. unfold int_text. rewrite Ei.
  pose proof (pd_digit _ Fi) as P. pose proof (plain_ne _ Pi) as Ne.
  assert (exists c q, print_digits i = c :: q) as (c & q & Ec). { destruct i; [congruence|]. eexists _, _; reflexivity. }
  assert (is_digit c = true) as Dc by (rewrite Ec in P; inversion P; auto).
  destruct (digit_not _ Dc) as (M1 & M2 & _ & _ & _ & Sp).
  assert (sign_split (skipws ((sign_text (z <? 0)%Z ++ print_digits i) ++ r)) = ((z <? 0)%Z, print_digits i ++ r)) as ->.
  { rewrite Ec. destruct (z <? 0)%Z; simpl. auto. rewrite Sp. simpl.
    destruct (Ascii.eqb_spec c "-"); [congruence|]. destruct (Ascii.eqb_spec c "+"); [congruence|]. auto. }
  rewrite span_digits_app by auto. rewrite digits_val_pd, Wi by auto. rewrite Ec.
  replace (if (z <? 0)%Z then (- Z.abs z)%Z else Z.abs z) with z by (destruct (Z.ltb_spec z 0); lia).
  destruct (Z.leb_spec (-2147483648) z); [|lia]. destruct (Z.leb_spec z 2147483647); [|lia]. auto.
Qed.

(** * padding *)
Lemma blanks_repeat n : blanks (blank_text n).
Proof. induction n; simpl; constructor; auto. Qed.
Lemma blanks_app a b : blanks a -> blanks b -> blanks (a ++ b). Proof. intros; apply Forall_app; auto. Qed.
