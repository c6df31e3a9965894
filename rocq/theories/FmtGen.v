(** Numbers printed with a given number of significant digits, and values with their
    deviations. *)
From Coq Require Import Ascii String List Arith ZArith Reals Bool Lia Lra.
From Verif Require Import Base SphereModel SphereProof ParserModel ParserLex PdfModel PdfSpec DataModel DataSpec DataProof FmtModel FmtSpec FmtProof.
Import ListNotations.
Local Open Scope R_scope.

Lemma pz_pos k : 0 < powerRZ 10 k. Proof. apply powerRZ_lt; lra. Qed.
Lemma pz_le a b : (a <= b)%Z -> powerRZ 10 a <= powerRZ 10 b.
Proof.
  intros H. replace b with (a + (b - a))%Z by lia. rewrite powerRZ_add by lra.
  assert (1 <= powerRZ 10 (b - a)). { rewrite <- (Z2Nat.id (b - a)) by lia. rewrite <- pow_powerRZ. apply pow_R1_Rle. lra. }
  pose proof (pz_pos a). nra.
Qed.
Lemma pz_lt_inv a b : powerRZ 10 a < powerRZ 10 b -> (a < b)%Z.
Proof. intros H. destruct (Z_lt_le_dec a b); auto. pose proof (pz_le _ _ l). lra. Qed.
Lemma decade_unique x X Y : decade x X -> decade x Y -> X = Y.
Proof.
  unfold decade. intros [A B] [C D].
  assert (X < Y + 1)%Z by (apply pz_lt_inv; lra). assert (Y < X + 1)%Z by (apply pz_lt_inv; lra). lia.
Qed.
Lemma decade_floor x : 0 < x -> decade x (zfloor (ln x / ln 10)).
Proof.
  intros H. unfold decade. rewrite Rabs_right by lra. pose proof (zfloor_spec (ln x / ln 10)) as [A B]. set (X := zfloor _) in *.
  assert (0 < ln 10) as L. { rewrite <- ln_1. apply ln_increasing; lra. }
  assert (forall k, powerRZ 10 k = exp (IZR k * ln 10)) as E. { intros k. rewrite powerRZ_Rpower by lra. reflexivity. }
  rewrite !E, plus_IZR.
  assert (ln x = ln x / ln 10 * ln 10) as Q by (field; lra).
  rewrite <- (exp_ln x H) at 1 2. split.
  - destruct (Rle_lt_or_eq_dec _ _ A) as [C|C].
    + left. apply exp_increasing. rewrite Q. apply Rmult_lt_compat_r; auto.
    + right. f_equal. rewrite Q, C. auto.
  - apply exp_increasing. rewrite Q. apply Rmult_lt_compat_r; auto.
Qed.

Lemma Zpower_pow10 k : (0 <= k)%Z -> IZR (10 ^ k) = powerRZ 10 k.
Proof. intros H. rewrite <- (Z2Nat.id k) by auto. rewrite pow10_Z, pow_powerRZ. auto. Qed.

(** the digits: P of them, and a number of the right size *)
Lemma lead_spec P x X : (0 < P)%nat -> 0 < x -> decade x X -> exists k Y, lead P x = (k, Y) /\
  (10 ^ (Z.of_nat P - 1) <= k < 10 ^ Z.of_nat P)%Z /\ (Y = X \/ Y = (X + 1)%Z) /\
  Rabs (IZR k * powerRZ 10 (Y + 1 - Z.of_nat P) - x) <= 1 / 2 * powerRZ 10 (X + 1 - Z.of_nat P).
Proof.
  intros HP H D. unfold lead. rewrite (decade_unique _ _ _ (decade_floor x H) D).
  destruct D as [A B]. rewrite Rabs_right in A, B by lra.
  set (y := x * powerRZ 10 (Z.of_nat P - 1 - X)). pose proof (pz_pos (Z.of_nat P - 1 - X)) as Q.
  assert (IZR (10 ^ (Z.of_nat P - 1)) <= y) as Y1.
  { rewrite (Zpower_pow10 (Z.of_nat P - 1)) by lia. unfold y. replace (Z.of_nat P - 1)%Z with (X + (Z.of_nat P - 1 - X))%Z at 1 by lia. rewrite powerRZ_add by lra. apply Rmult_le_compat_r; lra. }
  assert (y <= IZR (10 ^ Z.of_nat P)) as Y2.
  { rewrite (Zpower_pow10 (Z.of_nat P)) by lia. unfold y. replace (Z.of_nat P) with ((X + 1) + (Z.of_nat P - 1 - X))%Z at 2 by lia. rewrite powerRZ_add by lra. apply Rmult_le_compat_r; lra. }
  pose proof (round_even_ge _ _ Y1) as K1. pose proof (round_even_le _ _ Y2) as K2. pose proof (round_even_spec y) as K3.
  set (k := round_even y) in *.
  assert (Rabs (IZR k * powerRZ 10 (X + 1 - Z.of_nat P) - x) <= 1 / 2 * powerRZ 10 (X + 1 - Z.of_nat P)) as K4.
  { replace x with (y * powerRZ 10 (X + 1 - Z.of_nat P)).
    - replace (IZR k * powerRZ 10 (X + 1 - Z.of_nat P) - y * powerRZ 10 (X + 1 - Z.of_nat P)) with ((IZR k - y) * powerRZ 10 (X + 1 - Z.of_nat P)) by ring.
      pose proof (pz_pos (X + 1 - Z.of_nat P)). rewrite Rabs_mult, (Rabs_right (powerRZ _ _)) by lra. apply Rmult_le_compat_r; lra.
    - unfold y. rewrite Rmult_assoc, <- powerRZ_add by lra. replace (Z.of_nat P - 1 - X + (X + 1 - Z.of_nat P))%Z with 0%Z by lia. cbn [powerRZ]. ring. }
  destruct (Z.eqb_spec k (10 ^ Z.of_nat P)) as [E|E].
  - eexists _, _. split; [reflexivity|]. split; [|split; auto].
    + split; [lia|]. apply Z.pow_lt_mono_r; lia.
    + rewrite E in K4. replace (IZR (10 ^ (Z.of_nat P - 1)) * powerRZ 10 (X + 1 + 1 - Z.of_nat P)) with (IZR (10 ^ Z.of_nat P) * powerRZ 10 (X + 1 - Z.of_nat P)). exact K4.
      rewrite !Zpower_pow10 by lia. rewrite <- !powerRZ_add by lra. f_equal. lia.
  - eexists _, _. split; [reflexivity|]. split; [lia|]. split; auto.
Qed.

(** * dropping zeros *)
Lemma zero_pd k : (k < 10)%nat -> Ascii.eqb (ascii_of_nat (48 + k)) "0" = (k =? 0)%nat.
Proof. intros H. pattern k. apply lt10; auto. Qed.
Lemma drop_zeros_pd f : Forall (fun k => (k < 10)%nat) f -> exists g, drop_zeros (print_digits f) = print_digits g /\
  Forall (fun k => (k < 10)%nat) g /\ fraction g = fraction f /\ (g = [] \/ last g 0%nat <> 0%nat).
Proof.
  induction 1 as [|k f H F IH].
  - exists []. auto.
  - destruct IH as (g & E & Fg & V & L). unfold print_digits in *. cbn [map drop_zeros]. rewrite E.
    destruct g as [|h g].
    + cbn [map]. rewrite zero_pd by auto. destruct (Nat.eqb_spec k 0) as [->|N].
      * exists []. split; auto. split; auto. split; auto. cbn [fraction] in *. rewrite <- V. simpl. lra.
      * exists [k]. split; auto. split; auto. split. cbn [fraction] in *. rewrite <- V. auto. right. auto.
    + exists (k :: h :: g). split; auto. split. constructor; auto. split. cbn [fraction] in *. rewrite <- V. auto.
      right. destruct L as [L|L]; [discriminate|]. cbn [last] in *. exact L.
Qed.
Definition fracf (f : option (list nat)) : R := match f with None => 0 | Some d => fraction d end.
Lemma point_pd f : Forall (fun k => (k < 10)%nat) f -> exists g, point_text (print_digits f) = (match g with None => [] | Some d => "."%char :: print_digits d end) /\
  Forall (fun k => (k < 10)%nat) (match g with None => [] | Some d => d end) /\ fracf g = fraction f /\ plain_frac g.
Proof.
  intros F. destruct (drop_zeros_pd f F) as (g & E & Fg & V & L). unfold point_text. rewrite E.
  destruct g as [|h g].
  - exists None. cbn [fracf]. simpl. simpl in V. auto.
  - exists (Some (h :: g)). split; auto. split; auto. split; auto. split. discriminate. destruct L; [discriminate|]. auto.
Qed.
Lemma exp_pd X : exists e, exp_mark X = exp_text (Some e) /\ (let '(_, s, d) := e in Forall (fun k => (k < 10)%nat) d /\ d <> [] /\ (sign_of s * whole_z d)%Z = X).
Proof.
  destruct (dec_text_pd (Z.abs X) ltac:(lia)) as (d & E & F & W & P). pose proof (plain_ne _ P).
  exists (false, Some (X <? 0)%Z, if (Z.abs X <? 10)%Z then 0%nat :: d else d). split.
  - unfold exp_mark, exp_text. rewrite E. f_equal. destruct (X <? 0)%Z; cbn [print_sign app]; destruct (Z.abs X <? 10)%Z; reflexivity.
  - split; [|split].
    + destruct (Z.abs X <? 10)%Z; auto. constructor; auto. lia.
    + destruct (Z.abs X <? 10)%Z; [discriminate|auto].
    + replace (whole_z (if (Z.abs X <? 10)%Z then 0%nat :: d else d)) with (Z.abs X).
      destruct (Z.ltb_spec X 0); cbn [sign_of]; lia. destruct (Z.abs X <? 10)%Z; cbn [whole_z]; lia.
Qed.

Lemma value_parts s i f e v q : whole i + fracf f = v -> match e with None => 0%Z | Some (_, s, d) => (sign_of s * whole_z d)%Z end = q ->
  numeral_value (mkNum s i f e) = IZR (sign_of s) * v * powerRZ 10 q.
Proof. intros <- <-. unfold numeral_value. cbn [nu_sign nu_int nu_frac nu_exp]. unfold fracf. destruct e as [[[up s'] d]|]; auto. Qed.
Lemma sign_abs s v : Rabs (IZR (sign_of s) * v) = Rabs v.
Proof. rewrite Rabs_mult. replace (Rabs (IZR (sign_of s))) with 1. ring. destruct s as [[|]|]; cbn [sign_of]; [rewrite Rabs_left by lra|rewrite Rabs_right by lra|rewrite Rabs_right by lra]; ring. Qed.
Lemma sign_bool b : IZR (sign_of (if b : bool then Some true else None)) = if b then -1 else 1.
Proof. destruct b; auto. Qed.

Lemma general_print P d : (0 < P)%nat -> dbl_ok d -> exists n, general_text P (Some d) = print_numeral n /\ shows_general P d n.
Proof.
  intros HP H. unfold general_text, general_mag. destruct (Req_EM_T (d_mag d) 0) as [Z0|NZ].
  - exists (mkNum (if d_neg d then Some true else None) [0%nat] None None). split.
    + unfold print_numeral. cbn [nu_sign nu_int nu_frac nu_exp]. rewrite app_nil_r. destruct (d_neg d); auto.
    + unfold shows_general. cbn [nu_sign nu_int nu_frac nu_exp]. split; [|split; [|split; [|split; [|split]]]].
      * unfold numeral_ok. cbn [nu_sign nu_int nu_frac nu_exp]. repeat split; auto. constructor; auto. lia. discriminate.
      * reflexivity.
      * left; auto.
      * exact I.
      * intros _. split; auto. unfold numeral_value. cbn [nu_sign nu_int nu_frac nu_exp whole length pow]. simpl (INR 0). ring.
      * intros X [A B]. exfalso. unfold d_val in A. rewrite Z0 in A. replace (if d_neg d then - 0 else 0) with 0 in A by (destruct (d_neg d); ring).
        rewrite Rabs_R0 in A. pose proof (pz_pos X). lra.
  - assert (0 < d_mag d) as M by (unfold dbl_ok in H; lra).
    assert (Rabs (d_val d) = d_mag d) as AV. { unfold d_val. destruct (d_neg d); [rewrite Rabs_Ropp|]; apply Rabs_right; lra. }
    pose proof (decade_floor _ M) as D. set (X := zfloor _) in D.
    assert (decade (d_val d) X) as DV. { unfold decade in *. rewrite AV. rewrite Rabs_right in D by lra. exact D. }
    destruct (lead_spec P (d_mag d) X HP M D) as (k & Y & E & K & YX & CL). rewrite E.
    assert (0 < k)%Z as K0. { assert (0 < 10 ^ (Z.of_nat P - 1))%Z by (apply Z.pow_pos_nonneg; lia). lia. }
    set (v := IZR k * powerRZ 10 (Y + 1 - Z.of_nat P)) in *.
    assert (0 < v) as V0. { unfold v. apply Rmult_lt_0_compat. apply IZR_lt; auto. apply pz_pos. }
    assert (powerRZ 10 Y <= v < powerRZ 10 (Y + 1)) as VY.
    { unfold v. pose proof (pz_pos (Y + 1 - Z.of_nat P)). split.
      - replace (powerRZ 10 Y) with (IZR (10 ^ (Z.of_nat P - 1)) * powerRZ 10 (Y + 1 - Z.of_nat P)). apply Rmult_le_compat_r. lra. apply IZR_le; lia.
        rewrite Zpower_pow10 by lia. rewrite <- powerRZ_add by lra. f_equal; lia.
      - replace (powerRZ 10 (Y + 1)) with (IZR (10 ^ Z.of_nat P) * powerRZ 10 (Y + 1 - Z.of_nat P)). apply Rmult_lt_compat_r. lra. apply IZR_lt; lia.
        rewrite Zpower_pow10 by lia. rewrite <- powerRZ_add by lra. f_equal; lia. }
    assert (((-4 <= Y < Z.of_nat P)%Z) <-> powerRZ 10 (-4) <= v < 10 ^ P) as EX.
    { rewrite pow_powerRZ. split.
      - intros [Y1 Y2]. split. pose proof (pz_le _ _ Y1). lra. assert (Y + 1 <= Z.of_nat P)%Z as Y3 by lia. pose proof (pz_le _ _ Y3). lra.
      - intros [V1 V2]. split. assert (-4 < Y + 1)%Z by (apply pz_lt_inv; lra). lia. apply pz_lt_inv; lra. }
    assert (forall n, nu_sign n = (if d_neg d then Some true else None) -> numeral_value n = IZR (sign_of (nu_sign n)) * v ->
             numeral_ok n -> plain_int (nu_int n) -> plain_frac (nu_frac n) -> (nu_exp n = None <-> (-4 <= Y < Z.of_nat P)%Z) ->
             shows_general P d n) as G.
    { intros n S V OK PI PF XE. unfold shows_general. split; auto. split; [exact S|]. split; auto. split; auto. split; [intros; congruence|].
      intros X' D'. rewrite (decade_unique _ _ _ D' DV). rewrite V, sign_abs. rewrite (Rabs_right v) by lra. rewrite S, sign_bool. split; [|split].
      - unfold d_val. destruct (d_neg d).
        + replace (-1 * v - - d_mag d) with (- (v - d_mag d)) by ring. rewrite Rabs_Ropp. exact CL.
        + rewrite Rmult_1_l. auto.
      - exists ((if d_neg d then -1 else 1) * (k * if (Y =? X)%Z then 1 else 10))%Z. unfold v.
        assert (powerRZ 10 (Y + 1 - Z.of_nat P) = IZR (if (Y =? X)%Z then 1 else 10) * powerRZ 10 (X + 1 - Z.of_nat P)) as ->.
        { destruct (Z.eqb_spec Y X) as [->|NE]. ring. destruct YX as [-> | ->]; [congruence|]. replace (X + 1 + 1 - Z.of_nat P)%Z with (1 + (X + 1 - Z.of_nat P))%Z by lia.
          rewrite powerRZ_add by lra. simpl. ring. }
        rewrite !mult_IZR. destruct (d_neg d); ring.
      - rewrite XE. exact EX. }
    clear CL.
    destruct ((-4 <=? Y) && (Y <? Z.of_nat P))%Z eqn:FX.
    + apply andb_prop in FX as [F1 F2]. apply Z.leb_le in F1. apply Z.ltb_lt in F2.
      set (p := Z.to_nat (Z.of_nat P - 1 - Y)).
      assert (0 < 10 ^ Z.of_nat p)%Z as Zp by (apply Z.pow_pos_nonneg; lia).
      destruct (dec_text_pd (k / 10 ^ Z.of_nat p)) as (i & Ei & Fi & Wi & Pi). { apply Z.div_pos; lia. }
      destruct (low_digits_pd p (k mod 10 ^ Z.of_nat p)) as (f & Ef & Ff & Lf & Wf). { apply Z.mod_pos_bound; lia. }
      rewrite Z.mod_mod in Wf by lia.
      pose proof (parts_value i f p k ltac:(lia) Lf Wi Wf) as V.
      destruct (point_pd f Ff) as (g & Eg & Fg & Vg & Pg).
      exists (mkNum (if d_neg d then Some true else None) i g None). split.
      * rewrite Ei, Ef, Eg. unfold print_numeral. cbn [nu_sign nu_int nu_frac nu_exp]. rewrite app_nil_r. destruct (d_neg d); auto.
      * apply G; cbn [nu_sign nu_int nu_frac nu_exp]; auto.
        -- rewrite (value_parts _ _ _ _ (IZR k / 10 ^ p) 0%Z); auto. 2: rewrite Vg; auto.
           cbn [powerRZ]. rewrite Rmult_1_r. f_equal. unfold v.
           replace (Y + 1 - Z.of_nat P)%Z with (- Z.of_nat p)%Z by lia. rewrite powerRZ_neg', <- pow_powerRZ. reflexivity.
        -- unfold numeral_ok. cbn [nu_sign nu_int nu_frac nu_exp]. repeat split; auto. pose proof (plain_ne _ Pi). destruct i; [congruence|discriminate].
        -- split; auto.
    + set (p := (P - 1)%nat).
      assert (0 < 10 ^ Z.of_nat p)%Z as Zp by (apply Z.pow_pos_nonneg; lia).
      destruct (dec_text_pd (k / 10 ^ Z.of_nat p)) as (i & Ei & Fi & Wi & Pi). { apply Z.div_pos; lia. }
      destruct (low_digits_pd p (k mod 10 ^ Z.of_nat p)) as (f & Ef & Ff & Lf & Wf). { apply Z.mod_pos_bound; lia. }
      rewrite Z.mod_mod in Wf by lia.
      pose proof (parts_value i f p k ltac:(lia) Lf Wi Wf) as V.
      destruct (point_pd f Ff) as (g & Eg & Fg & Vg & Pg).
      destruct (exp_pd Y) as (e & Ee & He).
      exists (mkNum (if d_neg d then Some true else None) i g (Some e)). split.
      * rewrite Ei, Ef, Eg, Ee, print_split. cbn [nu_sign nu_int nu_frac nu_exp]. destruct (d_neg d); auto.
      * destruct e as [[up s] ds]. destruct He as (He1 & He2 & He3). apply G; cbn [nu_sign nu_int nu_frac nu_exp]; auto.
        -- rewrite (value_parts _ _ _ _ (IZR k / 10 ^ p) Y); auto. 2: rewrite Vg; auto.
           rewrite Rmult_assoc. f_equal. unfold v.
           replace (Y + 1 - Z.of_nat P)%Z with (- Z.of_nat p + Y)%Z by (unfold p; lia). rewrite powerRZ_add, powerRZ_neg', <- pow_powerRZ by lra. unfold Rdiv. ring.
        -- unfold numeral_ok. cbn [nu_sign nu_int nu_frac nu_exp]. repeat split; auto. pose proof (plain_ne _ Pi). destruct i; [congruence|discriminate].
        -- split; [discriminate|]. intros Q. exfalso. apply Bool.andb_false_iff in FX as [FX|FX]. apply Z.leb_gt in FX; lia. apply Z.ltb_ge in FX; lia.
Qed.
