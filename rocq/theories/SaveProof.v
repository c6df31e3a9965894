(** Lemmas for saved data texts. *)
From Coq Require Import Ascii String List Arith ZArith Reals Bool Lia Lra.
From Verif Require Import Base SphereModel SphereProof ParserModel ParserLex PdfModel PdfSpec PdfProof PdfTotal PdfFinal DataModel DataSpec DataProof DataFinal DataPlot FmtModel FmtSpec FmtProof FmtGen FmtFinal SaveModel SaveSpec.
Import ListNotations.
Local Open Scope R_scope.

Lemma dbl_of_ok x : dbl_ok (dbl_of x). Proof. unfold dbl_ok, dbl_of; cbn [d_mag]. apply Rabs_pos. Qed.
Lemma dbl_of_val x : d_val (dbl_of x) = x.
Proof. unfold d_val, dbl_of; cbn [d_mag d_neg]. destruct (Rlt_dec x 0). rewrite Rabs_left by auto; ring. apply Rabs_right; lra. Qed.
Lemma num_of x : is_num (Fin (dbl_of x)) x.
Proof. exists (dbl_of x). split; auto. split. apply dbl_of_ok. apply dbl_of_val. Qed.
Lemma sub_num a b u v : is_num a u -> is_num b v -> is_num (x_sub a b) (u - v).
Proof.
  intros (x & -> & X & <-) (y & -> & Y & <-). cbn [x_sub]. eexists. split; [reflexivity|].
  destruct (Req_EM_T (d_val x - d_val y) 0) as [E|E].
  - rewrite E. split. unfold dbl_ok; simpl; lra. unfold d_val; cbn [d_mag d_neg]. destruct (_ && _ : bool); ring.
  - split. apply dbl_of_ok. apply dbl_of_val.
Qed.
Lemma rsqrt_num a u : is_num a u -> 0 < u -> is_num (x_rsqrt a) (1 / sqrt u).
Proof.
  intros (x & -> & X & <-) H. cbn [x_rsqrt]. unfold d_val in *. unfold dbl_ok in X.
  destruct (Req_EM_T (d_mag x) 0) as [E|E]. rewrite E in H. destruct (d_neg x); lra.
  destruct (d_neg x); [lra|]. apply num_of.
Qed.

Lemma print_zeros p : repeat "0"%char p = print_digits (repeat 0%nat p).
Proof. induction p as [|p IH]; auto. cbn [repeat]. rewrite IH. reflexivity. Qed.
Lemma zeros_lt p : Forall (fun k => (k < 10)%nat) (repeat 0%nat p).
Proof. induction p; cbn [repeat]; constructor; auto; lia. Qed.
Lemma zeros_value p : fraction (repeat 0%nat p) = 0.
Proof. induction p as [|p IH]; cbn [repeat fraction]; auto. rewrite IH. simpl. field. Qed.

Lemma sharp_print P d : (0 < P)%nat -> dbl_ok d -> exists n, sharp_text P (Fin d) = print_numeral n /\
  numeral_ok n /\ sign_shown d n /\ nu_frac n <> None /\ (d_mag d = 0 -> numeral_value n = 0) /\
  forall X, decade (d_val d) X ->
    Rabs (numeral_value n - d_val d) <= 1 / 2 * powerRZ 10 (X + 1 - Z.of_nat P) /\
    exists k, numeral_value n = IZR k * powerRZ 10 (X + 1 - Z.of_nat P).
Proof.
  intros HP H. unfold sharp_text, sharp_mag. destruct (Req_EM_T (d_mag d) 0) as [Z0|NZ].
  - exists (mkNum (if d_neg d then Some true else None) [0%nat] (Some (repeat 0%nat (P - 1))) None). split.
    + unfold print_numeral. cbn [nu_sign nu_int nu_frac nu_exp]. rewrite app_nil_r, print_zeros. destruct (d_neg d); auto.
    + cbn [nu_sign nu_int nu_frac nu_exp]. split; [|split; [|split; [|split]]].
      * unfold numeral_ok. cbn [nu_sign nu_int nu_frac nu_exp]. repeat split; auto. constructor; auto. lia. apply zeros_lt. discriminate.
      * reflexivity.
      * discriminate.
      * intros _. unfold numeral_value. cbn [nu_sign nu_int nu_frac nu_exp whole length pow]. rewrite zeros_value. simpl (INR 0). ring.
      * intros X [A B]. exfalso. unfold d_val in A. rewrite Z0 in A. replace (if d_neg d then - 0 else 0) with 0 in A by (destruct (d_neg d); ring).
        rewrite Rabs_R0 in A. pose proof (pz_pos X). lra.
  - assert (0 < d_mag d) as M by (unfold dbl_ok in H; lra).
    assert (Rabs (d_val d) = d_mag d) as AV. { unfold d_val. destruct (d_neg d); [rewrite Rabs_Ropp|]; apply Rabs_right; lra. }
    pose proof (decade_floor _ M) as D. set (X := zfloor _) in D.
    assert (decade (d_val d) X) as DV. { unfold decade in *. rewrite AV. rewrite Rabs_right in D by lra. exact D. }
    destruct (lead_spec P (d_mag d) X HP M D) as (k & Y & E & K & YX & CL). rewrite E.
    assert (0 < k)%Z as K0. { assert (0 < 10 ^ (Z.of_nat P - 1))%Z by (apply Z.pow_pos_nonneg; lia). lia. }
    set (v := IZR k * powerRZ 10 (Y + 1 - Z.of_nat P)) in *.
    assert (forall n, nu_sign n = (if d_neg d then Some true else None) -> numeral_value n = IZR (sign_of (nu_sign n)) * v ->
             numeral_ok n -> nu_frac n <> None ->
             numeral_ok n /\ sign_shown d n /\ nu_frac n <> None /\ (d_mag d = 0 -> numeral_value n = 0) /\
  forall X, decade (d_val d) X ->
    Rabs (numeral_value n - d_val d) <= 1 / 2 * powerRZ 10 (X + 1 - Z.of_nat P) /\
    exists k, numeral_value n = IZR k * powerRZ 10 (X + 1 - Z.of_nat P)) as G.
    { intros n S V OK PF. split; auto. split; [exact S|]. split; auto. split; [intros; congruence|].
      intros X' D'. rewrite (decade_unique _ _ _ D' DV). rewrite V. rewrite S, sign_bool. split.
      - unfold d_val. destruct (d_neg d).
        + replace (-1 * v - - d_mag d) with (- (v - d_mag d)) by ring. rewrite Rabs_Ropp. exact CL.
        + rewrite Rmult_1_l. auto.
      - exists ((if d_neg d then -1 else 1) * (k * if (Y =? X)%Z then 1 else 10))%Z. unfold v.
        assert (powerRZ 10 (Y + 1 - Z.of_nat P) = IZR (if (Y =? X)%Z then 1 else 10) * powerRZ 10 (X + 1 - Z.of_nat P)) as ->.
        { destruct (Z.eqb_spec Y X) as [->|NE]. ring. destruct YX as [-> | ->]; [congruence|]. replace (X + 1 + 1 - Z.of_nat P)%Z with (1 + (X + 1 - Z.of_nat P))%Z by lia.
          rewrite powerRZ_add by lra. simpl. ring. }
        rewrite !mult_IZR. destruct (d_neg d); ring. }
    clear CL.
    destruct ((-4 <=? Y) && (Y <? Z.of_nat P))%Z eqn:FX.
    + apply andb_prop in FX as [F1 F2]. apply Z.leb_le in F1. apply Z.ltb_lt in F2.
      set (p := Z.to_nat (Z.of_nat P - 1 - Y)).
      assert (0 < 10 ^ Z.of_nat p)%Z as Zp by (apply Z.pow_pos_nonneg; lia).
      destruct (dec_text_pd (k / 10 ^ Z.of_nat p)) as (i & Ei & Fi & Wi & Pi). { apply Z.div_pos; lia. }
      destruct (low_digits_pd p (k mod 10 ^ Z.of_nat p)) as (f & Ef & Ff & Lf & Wf). { apply Z.mod_pos_bound; lia. }
      rewrite Z.mod_mod in Wf by lia.
      pose proof (parts_value i f p k ltac:(lia) Lf Wi Wf) as V.
      exists (mkNum (if d_neg d then Some true else None) i (Some f) None). split.
      * rewrite Ei, Ef. unfold print_numeral. cbn [nu_sign nu_int nu_frac nu_exp]. rewrite app_nil_r. destruct (d_neg d); auto.
      * apply G; cbn [nu_sign nu_int nu_frac nu_exp]; auto.
        -- rewrite (value_parts _ _ _ _ (IZR k / 10 ^ p) 0%Z); auto.
           cbn [powerRZ]. rewrite Rmult_1_r. f_equal. unfold v.
           replace (Y + 1 - Z.of_nat P)%Z with (- Z.of_nat p)%Z by lia. rewrite powerRZ_neg', <- pow_powerRZ. reflexivity.
        -- unfold numeral_ok. cbn [nu_sign nu_int nu_frac nu_exp]. repeat split; auto. pose proof (plain_ne _ Pi). destruct i; [congruence|discriminate].
        -- discriminate.
    + set (p := (P - 1)%nat).
      assert (0 < 10 ^ Z.of_nat p)%Z as Zp by (apply Z.pow_pos_nonneg; lia).
      destruct (dec_text_pd (k / 10 ^ Z.of_nat p)) as (i & Ei & Fi & Wi & Pi). { apply Z.div_pos; lia. }
      destruct (low_digits_pd p (k mod 10 ^ Z.of_nat p)) as (f & Ef & Ff & Lf & Wf). { apply Z.mod_pos_bound; lia. }
      rewrite Z.mod_mod in Wf by lia.
      pose proof (parts_value i f p k ltac:(lia) Lf Wi Wf) as V.
      destruct (exp_pd Y) as (e & Ee & He).
      exists (mkNum (if d_neg d then Some true else None) i (Some f) (Some e)). split.
      * rewrite Ei, Ef, Ee, print_split. cbn [nu_sign nu_int nu_frac nu_exp]. destruct (d_neg d); auto.
      * destruct e as [[up s] ds]. destruct He as (He1 & He2 & He3). apply G; cbn [nu_sign nu_int nu_frac nu_exp]; auto.
        -- rewrite (value_parts _ _ _ _ (IZR k / 10 ^ p) Y); auto.
           rewrite Rmult_assoc. f_equal. unfold v.
           replace (Y + 1 - Z.of_nat P)%Z with (- Z.of_nat p + Y)%Z by (unfold p; lia). rewrite powerRZ_add, powerRZ_neg', <- pow_powerRZ by lra. unfold Rdiv. ring.
        -- unfold numeral_ok. cbn [nu_sign nu_int nu_frac nu_exp]. repeat split; auto. pose proof (plain_ne _ Pi). destruct i; [congruence|discriminate].
        -- discriminate.
Qed.

Lemma eq_blank n : Forall (eq " "%char) (blank_text n).
Proof. unfold blank_text. induction n; cbn [repeat]; constructor; auto. Qed.
Lemma eq_blanks b : Forall (eq " "%char) b -> blanks b.
Proof. intros H. eapply Forall_impl; [|exact H]. intros a <-. reflexivity. Qed.
Lemma field_print x v : is_num x v -> exists b n, save_field x = b ++ print_numeral n /\ Forall (eq " "%char) b /\ six_digits v n.
Proof.
  intros (d & -> & H & <-). destruct (sharp_print 6 d) as (n & E & OK & S & F & Z0 & G); [lia|auto|].
  unfold save_field, pad_left. rewrite E. eexists _, n. split; [reflexivity|]. split. apply eq_blank.
  split; auto. split; auto. split.
  - intros V. apply Z0. unfold d_val in V. destruct (d_neg d); lra.
  - intros X D. specialize (G X D). replace (X + 1 - Z.of_nat 6)%Z with (X - 5)%Z in G by (simpl; lia). auto.
Qed.

(** ** lines *)
Lemma end_row : row_ok [] [].
Proof. split; [constructor|]. split; [constructor|]. split; [|auto]. exists [], []. repeat split; auto. constructor. Qed.
Lemma tail_row xs vals : Forall2 is_num xs vals ->
  exists row, concat (map (fun x => blank_text 4 ++ save_field x) xs) = print_row row [] /\ row_ok row [] /\
  Forall2 (fun x v => six_digits v (snd x)) row vals /\ Forall (fun x => fst x <> []) row /\ Forall (fun x => Forall (eq " "%char) (fst x)) row.
Proof.
  induction 1 as [|x v xs vals Hx F IH].
  - exists []. split; auto. split. exact end_row. repeat split; constructor.
  - destruct IH as (row & E & (R1 & R2 & R3 & R4) & Q & N & W). destruct (field_print x v Hx) as (b & n & Ef & Bb & D).
    exists ((blank_text 4 ++ b, n) :: row). cbn [map concat]. rewrite E, Ef, print_row_cons. split. rewrite <- !app_assoc. auto.
    split; [|split].
    + split. constructor; auto. cbn [fst snd]. split. apply blanks_app; auto using eq_blanks. apply blanks_repeat. apply D. split. auto.
      split; [auto|right; exact I].
    + constructor; auto.
    + split; constructor; auto. discriminate. cbn [fst]. apply Forall_app. split; auto using eq_blank.
Qed.
Lemma full_row x xs v vals : is_num x v -> Forall2 is_num xs vals ->
  exists row, save_field x ++ concat (map (fun x => blank_text 4 ++ save_field x) xs) = print_row row [] /\ line_of (v :: vals) (row, []).
Proof.
  intros Hx F. destruct (tail_row xs vals F) as (row & E & (R1 & R2 & R3 & R4) & Q & N & W). destruct (field_print x v Hx) as (b & n & Ef & Bb & D).
  exists ((b, n) :: row). rewrite E, Ef, print_row_cons, <- app_assoc. split; auto. split; [|split; auto].
  split. constructor; auto. cbn [fst snd]. split; auto using eq_blanks. apply D. split. auto. split; [auto|right; exact I].
  split; constructor; auto.
Qed.

(** ** texts *)
Lemma text_of_lines (ls : list text) : concat (map (fun l => l ++ [newline]) ls) = text_of ls true.
Proof.
  induction ls as [|l [|m ls] IH]; auto. cbn [map concat text_of app] in *. rewrite app_nil_r; auto.
  change (concat (map (fun l => l ++ [newline]) (l :: m :: ls))) with ((l ++ [newline]) ++ concat (map (fun l => l ++ [newline]) (m :: ls))).
  rewrite IH. rewrite <- app_assoc. auto.
Qed.
Lemma ofold_text (f : Z -> outcome text) (g : Z -> text) l acc : (forall i, In i l -> f i = Ok (g i)) ->
  ofold (fun acc i => obind (f i) (fun x => Ok (acc ++ x))) l acc = Ok (acc ++ concat (map g l)).
Proof.
  revert acc; induction l as [|i l IH]; intros acc H; cbn [ofold map concat]. rewrite app_nil_r; auto.
  rewrite H by (left; auto). cbn [obind]. rewrite IH by (intros; apply H; right; auto). rewrite <- app_assoc. auto.
Qed.
Lemma choose_rows {A} (P : nat -> A -> Prop) n : (forall k, (k < n)%nat -> exists a, P k a) -> exists l, length l = n /\ forall k d, (k < n)%nat -> P k (nth k l d).
Proof.
  induction n as [|n IH]; intros H. exists []. split; auto. intros; lia.
  destruct IH as (l & L & Q). intros; apply H; lia. destruct (H n) as (a & Ha); [lia|].
  exists (l ++ [a]). split. rewrite app_length; simpl; lia. intros k d K. destruct (Nat.eq_dec k n) as [->|N].
  rewrite app_nth2 by lia. rewrite L, Nat.sub_diag. auto. rewrite app_nth1 by lia. apply Q. lia.
Qed.

Definition g_pdf (s : sdata) (i : Z) : text :=
  let c := nth (Z.to_nat i) (sd_tot s) Nan in let w := nth (Z.to_nat i) (sd_wic s) Nan in let o := nth (Z.to_nat i) (sd_obs s) Nan in
  save_field (sd_r s i) ++ concat (map (fun x => blank_text 4 ++ save_field x) [c; Fin d_zero; x_rsqrt w; x_sub o c]).
Definition g_dif (s : sdata) (i : Z) : text :=
  let c := nth (Z.to_nat i) (sd_tot s) Nan in let o := nth (Z.to_nat i) (sd_obs s) Nan in
  save_field (sd_r s i) ++ concat (map (fun x => blank_text 4 ++ save_field x) [x_sub o c]).
Lemma pdf_line_ok s i : calculated s -> (sd_nfmin s <= i <= sd_nfmax s)%Z -> pdf_line s i = Ok (g_pdf s i ++ [newline]).
Proof.
  intros (A & B & C & D) I. unfold pdf_line, g_pdf. rewrite (rdz_ok (sd_tot s) i Nan) by lia. cbn [obind].
  rewrite (rdz_ok (sd_wic s) i Nan) by lia. cbn [obind]. rewrite (rdz_ok (sd_obs s) i Nan) by lia. cbn [obind map concat].
  rewrite <- !app_assoc. auto.
Qed.
Lemma dif_line_ok s i : calculated s -> (sd_nfmin s <= i <= sd_nfmax s)%Z -> dif_line s i = Ok (g_dif s i ++ [newline]).
Proof.
  intros (A & B & C & D) I. unfold dif_line, g_dif. rewrite (rdz_ok (sd_tot s) i Nan) by lia. cbn [obind].
  rewrite (rdz_ok (sd_obs s) i Nan) by lia. cbn [obind map concat].
  rewrite <- !app_assoc. auto.
Qed.
Lemma build_ok line g s : (sd_nfmin s <= sd_nfmax s)%Z -> (forall i, (sd_nfmin s <= i <= sd_nfmax s)%Z -> line i = Ok (g i ++ [newline])) ->
  build_file line s = Ok (text_of (map g (zloop (sd_nfmin s) (sd_nfmax s))) true).
Proof.
  intros L H. unfold build_file. rewrite (ofold_text line (fun i => g i ++ [newline])).
  - cbn [app]. rewrite <- text_of_lines. rewrite map_map. auto.
  - intros i I. apply zloop_in in I. auto.
Qed.
Lemma build_table line g s vals : (sd_nfmin s <= sd_nfmax s)%Z -> (forall i, (sd_nfmin s <= i <= sd_nfmax s)%Z -> line i = Ok (g i ++ [newline])) ->
  (forall k, (k < points s)%nat -> exists row, g (sd_nfmin s + Z.of_nat k)%Z = print_row row [] /\ line_of (vals k) (row, [])) ->
  exists t, build_file line s = Ok t /\ table_of (points s) vals t.
Proof.
  intros L H R. rewrite (build_ok line g s L H). eexists. split; [reflexivity|].
  destruct (choose_rows _ _ R) as (rows & Lr & Q). exists (map (fun r => (r, [])) rows). rewrite map_length. split; [|split; auto].
  - f_equal. unfold table_lines. rewrite map_map. cbn [fst snd]. apply (nth_ext _ _ [] []); rewrite !map_length, zloop_len by lia. rewrite Lr. unfold points; lia.
    intros k K. rewrite nth_zloop by lia. destruct (Q k [] ltac:(unfold points; lia)) as [E _]. rewrite E.
    rewrite (nth_indep _ [] (print_row [] [])) by (rewrite map_length, Lr; unfold points; lia).
    symmetry. apply (map_nth (fun r => print_row r [])).
  - intros k K. destruct (Q k [] K) as [_ E].
    pose proof (map_nth (fun r : list (text * numeral) => (r, [] : text)) rows [] k) as M. exact (eq_ind_r (line_of (vals k)) E M).
Qed.

Lemma r_num s k : (0 <= sd_nfmin s)%Z -> is_num (sd_r s (sd_nfmin s + Z.of_nat k)) (r_at s k).
Proof.
  intros H. unfold sd_r, r_at, point. replace (sd_rmin s + INR (Z.to_nat (sd_nfmin s) + k) * sd_deltar s) with (IZR (sd_nfmin s + Z.of_nat k) * sd_deltar s + sd_rmin s). apply num_of.
  rewrite INR_IZR_INZ. replace (Z.of_nat (Z.to_nat (sd_nfmin s) + k)) with (sd_nfmin s + Z.of_nat k)%Z by lia. ring.
Qed.
Lemma zero_num : is_num (Fin d_zero) 0.
Proof. exists d_zero. split; auto. split. unfold dbl_ok, d_zero; simpl; lra. unfold d_val, d_zero; simpl; ring. Qed.
Lemma point_lt s k n : (0 <= sd_nfmin s <= sd_nfmax s)%Z -> (k < points s)%nat -> (sd_nfmax s < Z.of_nat n)%Z -> (point s k < n)%nat.
Proof. unfold points, point. lia. Qed.
Lemma point_z s k : (0 <= sd_nfmin s)%Z -> Z.to_nat (sd_nfmin s + Z.of_nat k) = point s k.
Proof. unfold point. lia. Qed.

Lemma pdf_table s o c w : calculated s -> holds (sd_obs s) o -> holds (sd_tot s) c -> holds (sd_wic s) w -> (forall k, (k < points s)%nat -> 0 < w (point s k)) ->
  exists t, build_pdf_file s = Ok t /\
  table_of (points s) (fun k => let i := point s k in [r_at s k; c i; 0; 1 / sqrt (w i); o i - c i]) t.
Proof.
  intros C Ho Hc Hw Pw. pose proof C as (A & B & D & E). apply (build_table (pdf_line s) (g_pdf s) s). lia. intros; apply pdf_line_ok; auto.
  intros k K. unfold g_pdf. rewrite point_z by lia. apply full_row. apply r_num; lia.
  assert (is_num (nth (point s k) (sd_tot s) Nan) (c (point s k))) as Nc by (apply Hc; eapply point_lt; eauto; lia).
  constructor; auto. constructor. exact zero_num. constructor. apply rsqrt_num; auto. apply Hw. eapply point_lt; eauto; lia.
  constructor; auto. apply sub_num; auto. apply Ho. eapply point_lt; eauto; lia.
Qed.
Lemma dif_table s o c : calculated s -> holds (sd_obs s) o -> holds (sd_tot s) c ->
  exists t, build_dif_file s = Ok t /\ table_of (points s) (fun k => let i := point s k in [r_at s k; o i - c i]) t.
Proof.
  intros C Ho Hc. pose proof C as (A & B & D & E). apply (build_table (dif_line s) (g_dif s) s). lia. intros; apply dif_line_ok; auto.
  intros k K. unfold g_dif. rewrite point_z by lia. apply full_row. apply r_num; lia.
  constructor; auto. apply sub_num. apply Ho. eapply point_lt; eauto; lia. apply Hc; eapply point_lt; eauto; lia.
Qed.

(** ** reading them *)
Lemma six_close x n : six_digits x n -> Rabs (numeral_value n - x) <= 5 / 1000000 * Rabs x.
Proof.
  intros (_ & _ & Z0 & G). destruct (Req_dec x 0) as [->|N].
  - rewrite Z0 by auto. rewrite Rminus_0_r, Rabs_R0. lra.
  - assert (0 < Rabs x) as M by (apply Rabs_pos_lt; auto). pose proof (decade_floor _ M) as D. set (X := zfloor _) in D.
    assert (decade x X) as DV. { unfold decade in *. rewrite Rabs_Rabsolu in D. auto. }
    destruct (G X DV) as [C _]. apply Rle_trans with (1 := C). destruct DV as [A _].
    replace (1 / 2 * powerRZ 10 (X - 5)) with (5 / 1000000 * powerRZ 10 X). lra.
    replace X with (6 + (X - 5) + -1)%Z at 1 by lia. rewrite !powerRZ_add by lra.
    change (powerRZ 10 6) with (10 ^ 6). change (powerRZ 10 (-1)) with (/ 10 ^ 1). field_simplify; [|lra..]. lra.
Qed.
Lemma six_abs x n : six_digits x n -> Rabs x < 100 -> Rabs (numeral_value n - x) <= 5 / 100000.
Proof.
  intros S L. pose proof S as (_ & _ & Z0 & G). destruct (Req_dec x 0) as [->|N].
  - rewrite Z0 by auto. rewrite Rminus_0_r, Rabs_R0. lra.
  - assert (0 < Rabs x) as M by (apply Rabs_pos_lt; auto). pose proof (decade_floor _ M) as D. set (X := zfloor _) in D.
    assert (decade x X) as DV. { unfold decade in *. rewrite Rabs_Rabsolu in D. auto. }
    destruct (G X DV) as [C _]. apply Rle_trans with (1 := C). destruct DV as [A _].
    assert (X < 2)%Z as X1. { apply pz_lt_inv. change (powerRZ 10 2) with (10 ^ 2). lra. }
    assert (X - 5 <= -4)%Z as X2 by lia. apply pz_le in X2. change (powerRZ 10 (-4)) with (/ 10 ^ 4) in X2. lra.
Qed.
