(** Lemmas for the plotted lists, for arbitrary texts and for arrays. *)
From Coq Require Import Ascii String List Arith ZArith Reals Bool Lia Lra.
From Verif Require Import Base ParserModel PdfModel PdfSpec PdfProof PdfTotal PdfEx PdfFinal DataModel DataSpec DataProof DataFinal.
Import ListNotations.
Local Open Scope R_scope.

Lemma ofold_list {A} (f : Z -> outcome A) (g : Z -> A) l acc : (forall i, In i l -> f i = Ok (g i)) ->
  ofold (fun acc i => obind (f i) (fun x => Ok (acc ++ [x]))) l acc = Ok (acc ++ map g l).
Proof.
  revert acc; induction l as [|i l IH]; intros acc H; cbn [ofold map]. rewrite app_nil_r; auto.
  rewrite H by (left; auto). cbn [obind]. rewrite IH by (intros; apply H; right; auto). rewrite <- app_assoc. auto.
Qed.
Lemma py_list_ok {A} (f : Z -> outcome A) (g : Z -> A) a b : (a <= b + 1)%Z -> (forall i, (a <= i <= b)%Z -> f i = Ok (g i)) ->
  py_list f a b = Ok (map g (zloop a b)).
Proof.
  intros L H. unfold py_list. destruct (Z.ltb_spec (b - a + 1) 0); [lia|]. rewrite (ofold_list f g); auto.
  intros i I. apply zloop_in in I. auto.
Qed.
Lemma nth_zloop {A} (g : Z -> A) a b k dflt : (k < Z.to_nat (b - a + 1))%nat -> nth k (map g (zloop a b)) dflt = g (a + Z.of_nat k)%Z.
Proof.
  intros H. unfold zloop. rewrite map_map. rewrite (nth_indep _ dflt (g (a + Z.of_nat 0)%Z)) by (rewrite map_length, seq_length; auto).
  pose proof (map_nth (fun x : nat => g (a + Z.of_nat x)%Z) (seq 0 (Z.to_nat (b - a + 1))) 0%nat k) as Q. cbv beta in Q. rewrite Q, seq_nth by auto. auto.
Qed.
Lemma rdz_ok {A} (l : list A) i d : (0 <= i < Z.of_nat (length l))%Z -> rdz l i = Ok (nth (Z.to_nat i) l d).
Proof.
  intros H. unfold rdz, rd. destruct (Z.ltb_spec i 0); [lia|].
  rewrite (nth_error_nth' l d) by lia. auto.
Qed.

Lemma fit_array_len v : in_arrays v -> (vw_nfmax v < Z.of_nat (length (fit_array v)))%Z.
Proof.
  intros (A & B & C). unfold fit_array. destruct (vw_tot v) as [|x t] eqn:E. rewrite map_length. auto.
  destruct C as [C|C]; [discriminate|]. auto.
Qed.
Lemma agree v : in_arrays v -> (vw_nfmin v < vw_nfmax v)%Z -> lists_agree v.
Proof.
  intros I L. pose proof (fit_array_len v I) as Lf. pose proof I as (A & B & C).
  set (a := vw_nfmin v) in *. set (b := vw_nfmax v) in *.
  exists (map (fun i => IZR i * vw_deltar v + vw_rmin v) (zloop a b)), (map (fun i => nth (Z.to_nat i) (fit_array v) None) (zloop a b)),
         (map (fun i => Some (nth (Z.to_nat i) (vw_obs v) 0)) (zloop a b)),
         (map (fun i => nsub (Some (nth (Z.to_nat i) (vw_obs v) 0)) (nth (Z.to_nat i) (fit_array v) None)) (zloop a b)).
  rewrite !map_length, zloop_len by lia.
  split. { unfold get_r. fold a b. destruct (Z.eqb_spec (b - a + 1) 1); [lia|]. apply py_list_ok; auto. lia. }
  split. { unfold getpdf_fit. apply py_list_ok. fold a b; lia. intros i H. apply rdz_ok. fold a b in H. lia. }
  split. { unfold getpdf_obs. apply py_list_ok. fold a b; lia. intros i H. fold a b in H. rewrite (rdz_ok _ _ 0) by lia. auto. }
  split. { unfold getpdf_diff. apply py_list_ok. fold a b; lia. intros i H. fold a b in H. rewrite (rdz_ok _ _ 0) by lia. cbn [obind]. rewrite (rdz_ok (fit_array v) i (None : num)) by lia. auto. }
  split. lia. do 3 (split; [auto|]). intros k Hk. rewrite !nth_zloop by auto.
  replace (Z.to_nat (a + Z.of_nat k)) with (Z.to_nat a + k)%nat by lia.
  split. apply Rplus_comm. split. auto.
  assert (vw_tot v = [] -> nth (Z.to_nat a + k) (fit_array v) None = Some 0) as Z0.
  { intros E. unfold fit_array in *. rewrite E in *. rewrite map_length in Lf.
    rewrite (nth_indep _ None (Some 0)) by (rewrite map_length; lia).
    pose proof (map_nth (fun _ : R => Some 0) (vw_obs v) 0 (Z.to_nat a + k)%nat) as Q. exact Q. }
  split. auto.
  split. { intros E. unfold fit_array. destruct (vw_tot v); [congruence|]. auto. }
  split. { intros x ->. auto. } { intros ->. auto. }
Qed.

Lemma sound fuel t s : read_data_stream fuel t = Ok s ->
  (2 <= dt_bin s)%Z /\ length (dt_obs s) = Z.to_nat (dt_bin s) /\ length (dt_wic s) = Z.to_nat (dt_bin s) /\
  dt_nfmin s = 0%Z /\ dt_nfmax s = (dt_bin s - 1)%Z /\
  (exists dr, dt_deltar s = Some dr /\ dt_rmin s + (IZR (dt_bin s) - 1) * dr = dt_rmax s) /\
  (Forall (fun w => w = Some 1) (dt_wic s) \/ Forall (fun w => exists x, w = Some (1 / (x * x)) /\ 0 < x) (dt_wic s)).
Proof.
  unfold read_data_stream. destruct (getline _ _) as [[line st] ok].
  destruct (if text_eqb _ _ then _ else _) as [[s1 l1]| | |]; try discriminate. cbn [obind fst snd].
  destruct (skip_comments _ _ _) as [[s2 l2]| | |]; try discriminate. cbn [obind].
  set (nc := columns _ _). destruct (read_rows _ _ _ _ _) as [[rows lw]| | |] eqn:Er; try discriminate. cbn [obind].
  destruct (negb _); try discriminate.
  destruct (map (fun x : R * R * R => fst (fst x)) rows) as [|a [|b q]] eqn:E; try discriminate.
  intros H; inversion H; subst; clear H. cbn [dt_obs dt_wic dt_rmin dt_rmax dt_bin dt_nfmin dt_nfmax dt_deltar].
  assert (length rows = S (S (length q))) as L. { rewrite <- (map_length (fun x : R * R * R => fst (fst x))), E. auto. }
  rewrite !map_length, L. split. lia. split. lia. split. lia. split. auto. split. auto. split.
  { eexists. split; [reflexivity|]. assert (IZR (Z.of_nat (S (S (length q)))) - 1 <> 0).
    { rewrite <- INR_IZR_INZ, !S_INR. pose proof (pos_INR (length q)). lra. } field. auto. }
  destruct lw.
  - assert (forall f st line lwei rows, read_rows f nc st line lwei = Ok (rows, true) ->
      Forall (fun x => snd x = 1) rows \/ Forall (fun x => exists y, snd x = 1 / (y * y) /\ 0 < y) rows) as K.
    { assert (((nc =? 3) || (nc =? 4))%nat = true -> forall f st line lwei rows, read_rows f nc st line lwei = Ok (rows, true) ->
        lwei = true /\ Forall (fun x => exists y, snd x = 1 / (y * y) /\ 0 < y) rows) as K1.
      { intros N. induction f; intros st' line' lwei rows' H; [discriminate|]. cbn [read_rows] in H.
        destruct (scan_double line') as [[ri x1]|]; [|inversion H; subst; auto].
        destruct (scan_double x1) as [[ob x2]|]; [|inversion H; subst; auto].
        destruct (row_weight nc x2 lwei) as [wic lw'] eqn:Ew. destruct (getline st' line') as [[l' s'] ok'].
        assert (lw' = true -> lwei = true /\ exists y, wic = 1 / (y * y) /\ 0 < y) as Kw.
        { intros ->. unfold row_weight in Ew. apply orb_prop in N as [N|N]; apply Nat.eqb_eq in N; rewrite N in Ew.
          - destruct (scan_double x2) as [[v ?]|]; [|discriminate]. destruct (Rlt_dec 0 v); inversion Ew; subst. eauto.
          - destruct (scan_double x2) as [[v r]|]; [|discriminate]. destruct (scan_double r) as [[v' ?]|]; [|discriminate].
            destruct (Rlt_dec 0 v'); inversion Ew; subst. eauto. }
        destruct ok'.
        - destruct (read_rows f nc s' l' lw') as [[rr lw2]| | |] eqn:Ef; try discriminate. simpl in H. inversion H; subst.
          apply IHf in Ef as [-> F]. destruct (Kw eq_refl) as [-> W]. split; auto.
        - inversion H; subst. destruct (Kw eq_refl) as [-> W]. split; auto. }
      assert (((nc =? 3) || (nc =? 4))%nat = false -> forall f st line lwei rows, read_rows f nc st line lwei = Ok (rows, true) ->
        Forall (fun x => snd x = 1) rows) as K2.
      { intros N. induction f; intros st' line' lwei rows' H; [discriminate|]. cbn [read_rows] in H.
        destruct (scan_double line') as [[ri x1]|]; [|inversion H; subst; auto].
        destruct (scan_double x1) as [[ob x2]|]; [|inversion H; subst; auto].
        assert (row_weight nc x2 lwei = (1, lwei)) as Ew. { unfold row_weight. destruct nc as [|[|[|[|[|n]]]]]; auto; discriminate. }
        rewrite Ew in H. destruct (getline st' line') as [[l' s'] ok']. destruct ok'.
        - destruct (read_rows f nc s' l' lwei) as [[rr lw2]| | |] eqn:Ef; try discriminate. simpl in H. inversion H; subst.
          constructor; auto. eapply IHf; eauto.
        - inversion H; subst. auto. }
      intros. destruct ((nc =? 3) || (nc =? 4))%nat eqn:N. right. eapply K1; eauto. left. eapply K2; eauto. }
    destruct (K _ _ _ _ _ Er) as [F|F]; [left|right]; apply Forall_map; eapply Forall_impl; try exact F; intros x Hx; cbv beta in *.
    + rewrite Hx. auto.
    + destruct Hx as (y & -> & P). eauto.
  - left. apply Forall_map. apply Forall_forall. auto.
Qed.

Lemma agree_fresh fuel t s dr : read_data_stream fuel t = Ok s -> dt_deltar s = Some dr -> in_arrays (fresh_view s dr) /\ lists_agree (fresh_view s dr).
Proof.
  intros H D. apply sound in H as (B & Lo & _ & A & Bm & _).
  assert (in_arrays (fresh_view s dr)) as I. { unfold in_arrays, fresh_view; cbn. rewrite Lo, A, Bm. split. lia. split. lia. auto. }
  split; auto. apply agree; auto. unfold fresh_view; cbn. lia.
Qed.

Lemma agree_calculated d psel obs : good_grid d -> good_filter d -> (forall e, In e (selected_entries psel) -> cell_ok e) ->
  cd_deltar d < cd_rfmax d - cd_rfmin d -> (1 <= length obs)%nat -> cd_rfmax d <= grid d (Z.of_nat (length obs) - 1) ->
  exists f0, forall fuel, (f0 <= fuel)%nat -> exists f1 f2 t, determine fuel d psel = Ok (f1, f2, t) /\
  nearest d (cd_rfmin d) f1 /\ nearest d (cd_rfmax d) f2 /\
  forall rmax, lists_agree (mkView f1 f2 (cd_rmin d) rmax (cd_deltar d) obs t).
Proof.
  intros G F C Lr Lo Lm. destruct (ranges_any d psel G F C) as (lo & hi & f1 & f2 & f0 & (Nl & Nh & N1 & N2 & A & B) & Least & R).
  exists f0. intros fuel Hf. destruct (R fuel Hf) as (t & Q & Lt & _). exists f1, f2, t. split; auto. split; auto. split; auto.
  intros rmax. assert (f1 < f2)%Z as L12.
  { destruct (Z_lt_le_dec f1 f2); auto. assert (f1 = f2) by lia. subst. exfalso. unfold nearest in *. destruct G as (Gd & _). lra. }
  specialize (Least (Z.of_nat (length obs) - 1)%Z ltac:(lia) Lm).
  apply agree; auto. unfold in_arrays; cbn. split. lia. split. lia. right. rewrite Lt. lia.
Qed.

(** single-point range: the whole grid against one point *)
Lemma single_point : exists v r o, in_arrays v /\ vw_nfmin v = 1%Z /\ vw_nfmax v = 1%Z /\ vw_rmax v = vw_rmin v + 2 * vw_deltar v /\ length (vw_obs v) = 3%nat /\
  get_r v = Ok r /\ getpdf_obs v = Ok o /\ length r = 3%nat /\ length o = 1%nat.
Proof.
  set (v := mkView 1 1 1 3 1 [5; 6; 7] [Some 0; Some 0]).
  exists v, [1; 2; 3], [Some 6]. unfold in_arrays. cbn [vw_nfmin vw_nfmax vw_rmin vw_rmax vw_deltar vw_obs vw_tot v length].
  split; [split; [lia|split; [lia|right; lia]]|]. split; auto. split; auto. split. lra. split; auto.
  assert (ztrunc ((3 - 1) / 1) = 2%Z) as Zt.
  { replace ((3 - 1) / 1) with (IZR 2) by (simpl; lra). unfold ztrunc. destruct (Rlt_dec (IZR 2) 0). lra. pose proof (PdfFinal.zfloor_spec (IZR 2)) as [P Q]. apply le_IZR in P. assert (IZR 2 < IZR (SphereModel.zfloor (IZR 2) + 1)) as Q2 by (rewrite plus_IZR; auto). apply lt_IZR in Q2. lia. }
  split.
  { unfold get_r. cbn [vw_nfmin vw_nfmax vw_rmin vw_rmax vw_deltar v]. change (1 - 1 + 1 =? 1)%Z with true. cbv iota.
    destruct (Req_EM_T 1 0); [lra|]. rewrite Zt. change (obind (to_int 2) (fun n0 => py_list (fun i => Ok (IZR i * 1 + 1)) 0 n0)) with (py_list (fun i => Ok (IZR i * 1 + 1)) 0 2). rewrite (py_list_ok _ (fun i => IZR i * 1 + 1)) by (auto; lia). change (zloop 0 2) with [0%Z; 1%Z; 2%Z]. cbn [map]. apply f_equal. apply f_equal2; [lra|apply f_equal2; [lra|apply f_equal2; [lra|auto]]]. }
  split; [reflexivity|]. auto.
Qed.
