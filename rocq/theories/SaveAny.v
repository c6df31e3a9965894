(** Saved texts of values that need not be numbers. *)
From Coq Require Import Ascii String List Arith ZArith Reals Bool Lia Lra.
From Verif Require Import Base SphereModel SphereProof ParserModel PdfModel PdfProof PdfTotal DataModel DataSpec DataProof DataPlot FmtModel FmtSpec SaveModel SaveSpec SaveProof SaveFinal.
Import ListNotations.
Local Open Scope R_scope.

Lemma pad_len n t : (n <= length (pad_left n t))%nat.
Proof. unfold pad_left, blank_text. rewrite app_length, repeat_length. lia. Qed.
Lemma field_shows x : proper x -> exists b w, save_field x = b ++ w /\ Forall (eq " "%char) b /\ shows x w /\ (12 <= length (b ++ w))%nat.
Proof.
  destruct x as [d|s|]; intros P.
  - destruct (field_print (Fin d) (d_val d)) as (b & n & E & B & D). exists d; auto. exists b, (print_numeral n). repeat split; auto. exists n; auto.
    rewrite <- E. apply pad_len.
  - exists (blank_text (12 - length (sharp_text 6 (Inf s)))), (sharp_text 6 (Inf s)). split; [reflexivity|]. split. apply eq_blank. split. destruct s; reflexivity. apply pad_len.
  - exists (blank_text (12 - length (sharp_text 6 Nan))), (sharp_text 6 Nan). split; [reflexivity|]. split. apply eq_blank. split. reflexivity. apply pad_len.
Qed.
Lemma tail_written xs : Forall proper xs -> exists ws : list (text * text), concat (map (fun x => blank_text 4 ++ save_field x) xs) = concat (map (fun p => fst p ++ snd p) ws) /\
  Forall2 (fun p x => shows x (snd p)) ws xs /\ Forall (fun p => Forall (eq " "%char) (fst p) /\ (12 <= length (fst p ++ snd p))%nat) ws /\ Forall (fun p => fst p <> []) ws.
Proof.
  induction 1 as [|x xs P F (ws & E & A & B & C)]. exists []. repeat split; constructor.
  destruct (field_shows x P) as (b & w & Ef & Bb & Sw & L). exists ((blank_text 4 ++ b, w) :: ws). cbn [map concat fst snd].
  split. rewrite E, Ef. rewrite <- !app_assoc. reflexivity. split. constructor; auto. split; constructor; auto; cbn [fst snd].
  split. apply Forall_app; split; auto using eq_blank. rewrite <- app_assoc, app_length. lia. discriminate.
Qed.
Lemma full_written x xs : proper x -> Forall proper xs -> written (save_field x ++ concat (map (fun x => blank_text 4 ++ save_field x) xs)) (x :: xs).
Proof.
  intros P F. destruct (tail_written xs F) as (ws & E & A & B & C). destruct (field_shows x P) as (b & w & Ef & Bb & Sw & L).
  exists ((b, w) :: ws). cbn [map concat fst snd tl]. rewrite E, Ef. repeat split; auto.
Qed.

Lemma num_proper x v : is_num x v -> proper x.
Proof. intros (d & -> & P & _); auto. Qed.
Lemma not_num s v : ~ is_num (Inf s) v.
Proof. intros (d & E & _). discriminate. Qed.
Lemma nan_not_num v : ~ is_num Nan v.
Proof. intros (d & E & _). discriminate. Qed.
Lemma fin_num d : dbl_ok d -> is_num (Fin d) (d_val d).
Proof. intros P. exists d; auto. Qed.
Lemma sub_difference a b : proper a -> proper b -> difference a b (x_sub a b) /\ proper (x_sub a b).
Proof.
  intros A B. split.
  - unfold difference. split. intros x y Hx Hy. apply sub_num; auto.
    split. intros [-> | ->]; [destruct b|destruct a]; reflexivity.
    split. intros s -> ->. cbn [x_sub]. rewrite Bool.eqb_reflx. reflexivity.
    split. intros s -> N1 N2. destruct b as [d|t|]; cbn [x_sub]; auto; [|tauto]. destruct s, t; cbn; auto; tauto.
    intros s x (d & -> & _) ->. reflexivity.
  - destruct a as [d|s|], b as [e|t|]; try exact I. apply num_proper with (d_val d - d_val e). apply sub_num; apply fin_num; auto.
    cbn [x_sub]. destruct (Bool.eqb s t); exact I.
Qed.
Lemma rsqrt_uncertainty w : proper w -> uncertainty w (x_rsqrt w) /\ proper (x_rsqrt w).
Proof.
  intros P. split.
  - unfold uncertainty. split. intros v Hv L. apply rsqrt_num; auto.
    split. intros v (d & -> & K & <-) L. unfold x_rsqrt. unfold dbl_ok in K. unfold d_val in L. destruct (Req_EM_T (d_mag d) 0). destruct (d_neg d); lra. destruct (d_neg d); auto; lra.
    split. intros d -> Z. unfold x_rsqrt. destruct (Req_EM_T (d_mag d) 0); tauto.
    split. intros ->. exact zero_num. intros [-> | ->]; reflexivity.
  - destruct w as [d|[|]|]; try exact I. 2: apply num_proper with 0; exact zero_num.
    cbn [proper] in P. unfold x_rsqrt. destruct (Req_EM_T (d_mag d) 0). exact I. destruct (d_neg d) eqn:N. exact I.
    apply num_proper with (1 / sqrt (d_mag d)). apply num_of; auto.
Qed.

Lemma nth_proper l i : Forall proper l -> proper (nth i l Nan).
Proof. intros F. destruct (nth_in_or_default i l Nan) as [I|E]. rewrite Forall_forall in F; auto. rewrite E. exact I. Qed.
Lemma lines_of line g s : (sd_nfmin s <= sd_nfmax s)%Z -> (forall i, (sd_nfmin s <= i <= sd_nfmax s)%Z -> line i = Ok (g i ++ [newline])) ->
  exists lines, build_file line s = Ok (text_of lines true) /\ length lines = points s /\ forall k, (k < points s)%nat -> nth k lines [] = g (sd_nfmin s + Z.of_nat k)%Z.
Proof.
  intros L H. exists (map g (zloop (sd_nfmin s) (sd_nfmax s))). split. apply build_ok; auto. split. rewrite map_length, zloop_len by lia. unfold points; lia.
  intros k K. unfold points in K. apply nth_zloop. lia.
Qed.
Lemma any_pdf sets iset s : numbered sets iset s -> calculated s -> Forall proper (sd_obs s) -> Forall proper (sd_tot s) -> Forall proper (sd_wic s) ->
  exists lines, save_pdf sets iset = Ok (text_of lines true) /\ length lines = points s /\
  forall k, (k < points s)%nat -> let i := point s k in exists r y d, is_num r (r_at s k) /\ uncertainty (nth i (sd_wic s) Nan) y /\
    difference (nth i (sd_obs s) Nan) (nth i (sd_tot s) Nan) d /\ written (nth k lines []) [r; nth i (sd_tot s) Nan; Fin d_zero; y; d].
Proof.
  intros [N1 N2] C Po Pt Pw. pose proof C as (A & _). rewrite (proj1 (save_set sets iset s N1 N2)).
  destruct (lines_of (pdf_line s) (g_pdf s) s) as (ls & E & L & Q). lia. intros; apply pdf_line_ok; auto.
  exists ls. split; auto. split; auto. intros k K i. rewrite (Q k K). unfold g_pdf. rewrite point_z by lia. fold i.
  destruct (rsqrt_uncertainty (nth i (sd_wic s) Nan)) as [U1 U2]. apply nth_proper; auto.
  destruct (sub_difference (nth i (sd_obs s) Nan) (nth i (sd_tot s) Nan)) as [D1 D2]; try (apply nth_proper; auto).
  do 3 eexists. split. apply r_num; lia. split; [exact U1|]. split; [exact D1|].
  apply full_written. eapply num_proper, r_num; lia. constructor; auto using nth_proper. constructor. exact (num_proper _ _ zero_num). auto.
Qed.
Lemma any_dif sets iset s : numbered sets iset s -> calculated s -> Forall proper (sd_obs s) -> Forall proper (sd_tot s) ->
  exists lines, save_dif sets iset = Ok (text_of lines true) /\ length lines = points s /\
  forall k, (k < points s)%nat -> let i := point s k in exists r d, is_num r (r_at s k) /\
    difference (nth i (sd_obs s) Nan) (nth i (sd_tot s) Nan) d /\ written (nth k lines []) [r; d].
Proof.
  intros [N1 N2] C Po Pt. pose proof C as (A & _). rewrite (proj2 (save_set sets iset s N1 N2)).
  destruct (lines_of (dif_line s) (g_dif s) s) as (ls & E & L & Q). lia. intros; apply dif_line_ok; auto.
  exists ls. split; auto. split; auto. intros k K i. rewrite (Q k K). unfold g_dif. rewrite point_z by lia. fold i.
  destruct (sub_difference (nth i (sd_obs s) Nan) (nth i (sd_tot s) Nan)) as [D1 D2]; try (apply nth_proper; auto).
  do 2 eexists. split. apply r_num; lia. split; [exact D1|].
  apply full_written. eapply num_proper, r_num; lia. repeat constructor; auto using nth_proper.
Qed.
(** a set with a zero weight, a calculated NaN and an observed infinity *)
Definition odd_set : sdata := mkSd 0 1 1 (1 / 100) [Inf true; Fin (dbl_of 1)] [Fin d_zero; Fin (dbl_of 1)] [Fin (dbl_of 1); Nan].
Lemma odd_case : numbered [odd_set] 1 odd_set /\ calculated odd_set /\ Forall proper (sd_obs odd_set) /\ Forall proper (sd_tot odd_set) /\ Forall proper (sd_wic odd_set).
Proof.
  split. split; [lia|reflexivity]. split. unfold calculated, odd_set; cbn; lia.
  assert (dbl_ok (dbl_of 1)) as D. { unfold dbl_ok, dbl_of. cbn [d_mag]. apply Rabs_pos. }
  split; [|split]; unfold odd_set; cbn [sd_obs sd_tot sd_wic]; constructor; try exact I; auto; try exact (num_proper _ _ zero_num); constructor; try exact I; auto.
Qed.
