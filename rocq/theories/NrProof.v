(** Proofs about the work arrays. *)
From Coq Require Import List Arith ZArith Reals Bool Lia.
From Verif Require Import Base NrModel NrSpec.
Import ListNotations.
Local Open Scope Z_scope.

Lemma upd_last {A} (pre : list A) x y : upd (length pre) y (pre ++ [x]) = pre ++ [y].
Proof. induction pre; cbn; auto. rewrite IHpre. reflexivity. Qed.
Lemma nth_last {A} (pre : list A) x : nth_error (pre ++ [x]) (length pre) = Some x.
Proof. rewrite nth_error_app2 by lia. rewrite Nat.sub_diag. reflexivity. Qed.
Lemma upd_len {A} n (x : A) l : length (upd n x l) = length l.
Proof. revert n. induction l; intros [|n]; cbn; auto. Qed.
Lemma upd_same {A} n (x : A) l : (n < length l)%nat -> nth_error (upd n x l) n = Some x.
Proof. revert n. induction l; intros [|n] H; cbn in *; try lia; auto. apply IHl. lia. Qed.
Lemma upd_other {A} n k (x : A) l : k <> n -> nth_error (upd n x l) k = nth_error l k.
Proof. revert n k. induction l; intros [|n] [|k] H; cbn in *; try lia; auto. Qed.

Section Last.
Variable pre : list block.
Let b := length pre.
Definition wp (D : list cell) : heap := pre ++ [mkBlk true D].

Lemma store_last D o c : 0 <= o < Z.of_nat (length D) -> store (wp D) (At b o) c = Ok (wp (upd (Z.to_nat o) c D)).
Proof.
  intros H. unfold store, wp, b. rewrite nth_last. cbn [bk_live bk_cells andb]. destruct (Z.leb_spec 0 o); [|lia].
  unfold wr. destruct (Nat.ltb_spec (Z.to_nat o) (length D)); [|lia]. cbn [obind]. rewrite upd_last. reflexivity.
Qed.
Lemma load_last D o : 0 <= o -> load (wp D) (At b o) = rd D (Z.to_nat o).
Proof. intros H. unfold load, wp, b. rewrite nth_last. cbn [bk_live bk_cells andb]. destruct (Z.leb_spec 0 o); [|lia]. reflexivity. Qed.

Lemma array_of {I} (at_ : heap -> I -> outcome ptr) (dom : I -> Prop) (free : heap -> outcome heap) (h : heap) (f : I -> Z) N D0 :
  (length h <= length pre)%nat -> (forall k, (k < length h)%nat -> nth_error pre k = nth_error h k) ->
  length D0 = N ->
  (forall D i, length D = N -> dom i -> at_ (wp D) i = Ok (At b (f i)) /\ 0 <= f i < Z.of_nat N) ->
  (forall i j, dom i -> dom j -> f i = f j -> i = j) ->
  (forall D, length D = N -> exists h4, free (wp D) = Ok h4 /\ (length h <= length h4)%nat /\
     (forall b, (b < length h)%nat -> nth_error h4 b = nth_error h b) /\
     forall b B, (length h <= b)%nat -> nth_error h4 b = Some B -> bk_live B = false) ->
  array at_ dom free h (wp D0).
Proof.
  intros L E L0 A IN F h2 W.
  assert (S : exists D, h2 = wp D /\ length D = N).
  { induction W as [|h1 i p x h2 W [D [-> LD]] Di Ai Si]. exists D0; auto. destruct (A D i LD Di) as [Ep R]. rewrite Ep in Ai. injection Ai as <-.
    rewrite store_last in Si by lia. injection Si as <-. eexists. split. reflexivity. rewrite upd_len. auto. }
  destruct S as (D & -> & LD). split; [|split; [|auto]].
  - intros k K. unfold wp. rewrite nth_error_app1 by lia. auto.
  - intros i Di. destruct (A D i LD Di) as [Ei Ri]. exists (At b (f i)). split; auto. intros x. eexists. split. apply store_last. lia. split.
    + rewrite load_last by lia. unfold rd. rewrite upd_same by lia. reflexivity.
    + intros j Dj N2. destruct (A D j LD Dj) as [Ej Rj]. exists (At b (f j)). split; auto.
      destruct (A (upd (Z.to_nat (f i)) (CVal x) D) j) as [Ej2 _]; auto. rewrite upd_len; auto. split; auto.
      rewrite !load_last by lia. unfold rd. rewrite upd_other; auto. intros Q. apply N2. apply IN; auto. lia.
Qed.
End Last.

Lemma free_last pre D : mfree (wp pre D) (At (length pre) 0) = Ok (pre ++ [mkBlk false D]).
Proof. unfold mfree, wp. rewrite nth_last. cbn [bk_live bk_cells andb]. rewrite Z.eqb_refl. rewrite upd_last. reflexivity. Qed.

Lemma padd_at strict h b o k B : nth_error h b = Some B -> (strict = true -> 0 <= o + k <= blk_size B) -> padd strict h (At b o) k = Ok (At b (o + k)).
Proof.
  intros E S. unfold padd. rewrite E. destruct strict; cbn [andb]; auto. specialize (S eq_refl).
  destruct (Z.leb_spec 0 (o + k)); [|lia]. destruct (Z.leb_spec (o + k) (blk_size B)); [|lia]. reflexivity.
Qed.

(** * vectors *)
Lemma vector_array h nl nh : nl <= nh -> exists h1 v, vector false nl nh h = Ok (h1, v) /\
  array (fun h => vec_at false h v) (fun i => nl <= i <= nh) (free_vector false v nl nh) h h1.
Proof.
  intros H. unfold vector. destruct (Z.ltb_spec nh nl); [lia|]. unfold malloc, nr_end.
  set (D0 := repeat CUndef (Z.to_nat (nh - nl + 1 + 1))). change (h ++ [mkBlk true D0]) with (wp h D0).
  assert (P : forall D o k, padd false (wp h D) (At (length h) o) k = Ok (At (length h) (o + k))).
  { intros D o k. unfold wp. eapply padd_at. apply nth_last. discriminate. }
  rewrite P. cbn [obind]. rewrite P. cbn [omap obind]. eexists _, _. split. reflexivity.
  apply (array_of h) with (f := fun i => i - nl + 1) (N := Z.to_nat (nh - nl + 2)); auto.
  - unfold D0. rewrite repeat_length. f_equal. lia.
  - intros D i LD Di. split; [|lia]. unfold vec_at. rewrite P. do 2 f_equal. lia.
  - intros; lia.
  - intros D LD. unfold free_vector. destruct (Z.ltb_spec nh nl); [lia|]. rewrite P. cbn [obind]. rewrite P. cbn [obind]. unfold nr_end.
    replace (0 + - nl + 1 + nl + - (1)) with 0 by lia. rewrite free_last. eexists. split. reflexivity. rewrite app_length. cbn [length]. split. lia. split.
    + intros b Hb. apply nth_error_app1; auto.
    + intros b B Hb. rewrite nth_error_app2 by auto. destruct (b - length h)%nat as [|[|k]]; cbn; intros Q; try discriminate. injection Q as <-. reflexivity.
Qed.

Lemma vector_strict h nh : 1 <= nh -> vector true 1 nh h = UB.
Proof.
  intros H. unfold vector. destruct (Z.ltb_spec nh 1); [lia|]. unfold malloc, padd. rewrite nth_last. reflexivity.
Qed.

(** * matrices *)
Section Mat.
Variables (strict : bool) (h : heap) (nrl nrh ncl nch : Z).
Hypothesis Hr : nrl <= nrh.
Hypothesis Hc : ncl <= nch.
Hypothesis Hs : strict = true -> nrl = 1 /\ ncl = 1.
Let nrow := nrh - nrl + 1.
Let ncol := nch - ncl + 1.
Let a := length h.
Let m := At a (0 + nr_end + - nrl).
Definition row (k : Z) : ptr := At (S a) (1 - ncl + k * ncol).
Definition two (R D : list cell) : heap := wp (h ++ [mkBlk true R]) D.

Lemma len_pre R : length (h ++ [mkBlk true R]) = S a.
Proof. rewrite app_length. cbn. unfold a. lia. Qed.
Lemma nth_rows R D : nth_error (two R D) a = Some (mkBlk true R).
Proof. unfold two, wp. rewrite nth_error_app1 by (rewrite len_pre; lia). apply nth_last. Qed.
Lemma nth_data R D : nth_error (two R D) (S a) = Some (mkBlk true D).
Proof. unfold two, wp. rewrite <- (len_pre R). apply nth_last. Qed.
Lemma upd_rows R D R' : upd a (mkBlk true R') (two R D) = two R' D.
Proof. unfold two, wp, a. rewrite <- !app_assoc. cbn. induction h; cbn; auto. rewrite IHh0. reflexivity. Qed.

Definition sizes (R D : list cell) : Prop := Z.of_nat (length R) = nrow + 1 /\ Z.of_nat (length D) = nrow * ncol + 1.
(** the first t rows are set *)
Definition rows (R : list cell) (t : Z) : Prop := forall k, 0 <= k < t -> nth_error R (Z.to_nat (k + 1)) = Some (CPtr (row k)).

Lemma at_row R D i : sizes R D -> nrl <= i <= nrh -> padd strict (two R D) m i = Ok (At a (i - nrl + 1)).
Proof.
  intros [SR _] I. unfold m. erewrite padd_at; [|apply nth_rows|].
  - do 2 f_equal. unfold nr_end. lia.
  - intros S. destruct (Hs S). unfold blk_size, nr_end. cbn [bk_cells]. fold nrow in SR. unfold nrow in SR. lia.
Qed.
Lemma load_row R D t k : sizes R D -> rows R t -> 0 <= k < t -> loadp (two R D) (At a (k + 1)) = Ok (row k).
Proof.
  intros S RT K. unfold loadp, load. rewrite nth_rows. cbn [bk_live bk_cells andb]. destruct (Z.leb_spec 0 (k + 1)); [|lia]. unfold rd. rewrite (RT k K). reflexivity.
Qed.
Lemma store_row R D k c : sizes R D -> 0 <= k < nrow -> store (two R D) (At a (k + 1)) c = Ok (two (upd (Z.to_nat (k + 1)) c R) D).
Proof.
  intros [SR _] K. unfold store. rewrite nth_rows. cbn [bk_live bk_cells andb]. destruct (Z.leb_spec 0 (k + 1)); [|lia].
  unfold wr. destruct (Nat.ltb_spec (Z.to_nat (k + 1)) (length R)); [|lia]. cbn [obind]. rewrite upd_rows. reflexivity.
Qed.
Lemma sizes_upd R D n c : sizes R D -> sizes (upd n c R) D.
Proof. intros [A B]. split; auto. rewrite upd_len. auto. Qed.
Lemma rows_upd R D t : sizes R D -> rows R t -> 0 <= t < nrow -> rows (upd (Z.to_nat (t + 1)) (CPtr (row t)) R) (t + 1).
Proof.
  intros [SR _] RT T k K. destruct (Z.eq_dec k t) as [->|N]. apply upd_same. lia. rewrite upd_other by lia. apply RT. lia.
Qed.
Lemma prod_pos k : 0 <= k < nrow -> 0 <= k * ncol /\ (k + 1) * ncol <= nrow * ncol.
Proof. intros K. assert (0 < ncol) by (unfold ncol; lia). split. apply Z.mul_nonneg_nonneg; lia. apply Z.mul_le_mono_nonneg_r; lia. Qed.
Lemma at_cell R D k j : sizes R D -> 0 <= k < nrow -> ncl <= j <= nch -> padd strict (two R D) (row k) j = Ok (At (S a) (k * ncol + (j - ncl) + 1)) /\ 0 <= k * ncol + (j - ncl) + 1 < nrow * ncol + 1.
Proof.
  intros [_ SD] K J. destruct (prod_pos k K) as [P1 P2]. assert (B : 0 <= k * ncol + (j - ncl) + 1 < nrow * ncol + 1) by (unfold ncol in *; lia). split; auto.
  unfold row. erewrite padd_at; [|apply nth_data|]. do 2 f_equal. lia. intros S. destruct (Hs S). unfold blk_size. cbn [bk_cells]. lia.
Qed.
Lemma next_row R D k : sizes R D -> 0 <= k -> k + 1 < nrow -> padd strict (two R D) (row k) ncol = Ok (row (k + 1)).
Proof.
  intros [_ SD] K K1. destruct (prod_pos (k + 1)) as [P1 P2]; [lia|]. unfold row. erewrite padd_at; [|apply nth_data|]. do 2 f_equal. lia.
  intros S. destruct (Hs S). unfold blk_size. cbn [bk_cells]. lia.
Qed.

Lemma rows_loop n : forall t R D, sizes R D -> rows R t -> 1 <= t -> t + Z.of_nat n = nrow ->
  exists R', sizes R' D /\ rows R' nrow /\
  ofold (fun h i => obind (padd strict h m (i - 1)) (fun x => obind (loadp h x) (fun q => obind (padd strict h q ncol) (fun q =>
                obind (padd strict h m i) (fun b => store h b (CPtr q))))))
        (map (fun k => nrl + t + Z.of_nat k) (seq 0 n)) (two R D) = Ok (two R' D).
Proof.
  induction n as [|n IH]; intros t R D S RT T E.
  - exists R. split; auto. split; auto. replace nrow with t by lia. auto.
  - cbn [seq map ofold]. rewrite (at_row R D) by (auto; unfold nrow in *; lia).
    cbn [obind]. replace (nrl + t + Z.of_nat 0 - 1 - nrl + 1) with (t - 1 + 1) by lia. rewrite (load_row R D t) by (auto; lia). cbn [obind].
    rewrite next_row by (auto; lia). cbn [obind]. rewrite at_row by (auto; unfold nrow in *; lia). cbn [obind].
    replace (nrl + t + Z.of_nat 0 - nrl + 1) with (t + 1) by lia. rewrite store_row by (auto; lia). cbn [obind]. replace (t - 1 + 1) with t by lia.
    destruct (IH (t + 1) (upd (Z.to_nat (t + 1)) (CPtr (row t)) R) D) as (R' & S' & RT' & E').
    + apply sizes_upd; auto.
    + apply (rows_upd R D); auto. lia.
    + lia.
    + lia.
    + exists R'. split; auto. split; auto. rewrite <- E'. f_equal. rewrite <- seq_shift, map_map. apply map_ext. intros k. lia.
Qed.

Lemma matrix_array : exists h1 m1, matrix strict nrl nrh ncl nch h = Ok (h1, m1) /\
  array (fun h ij => mat_at strict h m1 (fst ij) (snd ij)) (fun ij => nrl <= fst ij <= nrh /\ ncl <= snd ij <= nch) (free_matrix strict m1 nrl nrh ncl nch) h h1.
Proof.
  set (R0 := repeat CUndef (Z.to_nat (nrow + nr_end))). set (D0 := repeat CUndef (Z.to_nat (nrow * ncol + nr_end))).
  assert (NR : 1 <= nrow) by (unfold nrow; lia). assert (NC : 1 <= ncol) by (unfold ncol; lia). assert (NN : 0 <= nrow * ncol) by (apply Z.mul_nonneg_nonneg; lia).
  assert (S0 : sizes R0 D0). { unfold sizes, R0, D0, nr_end. rewrite !repeat_length. split; lia. }
  assert (K0 : 0 <= 0 < nrow) by lia.
  assert (C0 : forall R D c, sizes R D -> store (two R D) (At a 1) c = Ok (two (upd 1 c R) D)) by (intros R D c S; apply (store_row R D 0); auto).
  assert (L0 : forall R D q, sizes R D -> loadp (two (upd 1 (CPtr q) R) D) (At a 1) = Ok q).
  { intros R D q [SR _]. unfold loadp, load. rewrite nth_rows. cbn [bk_live bk_cells andb Z.leb Z.compare]. unfold rd. change (Z.to_nat 1) with 1%nat. rewrite upd_same by lia. reflexivity. }
  assert (PD : forall R D o k, sizes R D -> (strict = true -> 0 <= o + k <= 1) -> padd strict (two R D) (At (S a) o) k = Ok (At (S a) (o + k))).
  { intros R D o k [_ SD] Q. eapply padd_at. apply nth_data. intros S. specialize (Q S). unfold blk_size. cbn [bk_cells]. lia. }
  set (R1 := upd 1 (CPtr (At (S a) (0 + nr_end + - ncl))) (upd 1 (CPtr (At (S a) (0 + nr_end))) (upd 1 (CPtr (At (S a) 0)) R0))).
  assert (S1 : sizes R1 D0) by (unfold R1; repeat apply sizes_upd; auto).
  assert (RT : rows R1 1).
  { intros k K. replace k with 0 by lia. change (Z.to_nat (0 + 1)) with 1%nat. unfold R1. rewrite upd_same. unfold row, nr_end. replace (0 + 1 + - ncl) with (1 - ncl + 0 * ncol) by lia. reflexivity. rewrite !upd_len. destruct S0. lia. }
  destruct (rows_loop (Z.to_nat (nrh - nrl)) 1 R1 D0 S1 RT) as (R' & S' & RT' & E'); [lia|unfold nrow; lia|].
  exists (two R' D0), m. split.
  - unfold matrix. destruct (Z.ltb_spec nrh nrl); [lia|]. destruct (Z.ltb_spec nch ncl); [lia|]. cbn [orb]. unfold malloc. fold nrow ncol R0 D0. fold a.
    assert (N0 : nth_error (h ++ [mkBlk true R0]) a = Some (mkBlk true R0)) by apply nth_last.
    erewrite padd_at; [|exact N0|]. 2:{ intros S. destruct S0. unfold blk_size, nr_end. cbn [bk_cells]. lia. }
    cbn [obind]. erewrite padd_at; [|exact N0|]. 2:{ intros S. destruct (Hs S). destruct S0. unfold blk_size, nr_end. cbn [bk_cells]. lia. }
    cbn [obind]. change ((h ++ [mkBlk true R0]) ++ [mkBlk true D0]) with (two R0 D0). fold m. rewrite len_pre.
    rewrite at_row by (auto; lia). cbn [obind]. replace (nrl - nrl + 1) with 1 by lia. rewrite C0 by auto. cbn [obind].
    rewrite L0 by auto. cbn [obind]. rewrite PD; [|apply sizes_upd; auto|unfold nr_end; lia]. cbn [obind]. rewrite C0 by (apply sizes_upd; auto). cbn [obind].
    rewrite L0 by (apply sizes_upd; auto). cbn [obind]. rewrite PD; [|repeat apply sizes_upd; auto|intros S; destruct (Hs S); unfold nr_end; lia]. cbn [obind]. rewrite C0 by (repeat apply sizes_upd; auto). cbn [obind].
    fold R1. unfold row_indices. rewrite E'. reflexivity.
  - unfold two. apply (array_of (h ++ [mkBlk true R'])) with (f := fun ij => (fst ij - nrl) * ncol + (snd ij - ncl) + 1) (N := Z.to_nat (nrow * ncol + 1)).
    + rewrite len_pre. unfold a. lia.
    + intros k K. apply nth_error_app1; auto.
    + destruct S0. lia.
    + intros D [i j] LD [Di Dj]. cbn [fst snd] in *. rewrite len_pre. change (wp (h ++ [mkBlk true R']) D) with (two R' D).
      assert (SD : sizes R' D) by (split; [apply S'|lia]). unfold mat_at. rewrite at_row by (auto; lia). cbn [obind]. rewrite (load_row R' D nrow) by (auto; unfold nrow; lia). cbn [obind].
      destruct (at_cell R' D (i - nrl) j SD) as [E B]; [unfold nrow; lia|lia|]. split. exact E. lia.
    + intros [i j] [i' j'] [I J] [I' J'] E. cbn [fst snd] in *. assert (X : i - nrl = i' - nrl /\ j - ncl = j' - ncl).
      { apply (Z.div_mod_unique ncol); [left; unfold ncol; lia|left; unfold ncol; lia|lia]. }
      destruct X. f_equal; lia.
    + intros D LD. change (wp (h ++ [mkBlk true R']) D) with (two R' D). assert (SD : sizes R' D) by (split; [apply S'|lia]).
      unfold free_matrix. destruct (Z.ltb_spec nrh nrl); [lia|]. destruct (Z.ltb_spec nch ncl); [lia|]. cbn [orb]. rewrite at_row by (auto; lia). cbn [obind].
      rewrite (load_row R' D nrow) by (auto; lia). cbn [obind]. replace (nrl - nrl) with 0 by lia. unfold row.
      rewrite PD; [|auto|intros S; destruct (Hs S); lia]. cbn [obind]. rewrite PD; [|auto|intros S; unfold nr_end; lia]. cbn [obind]. unfold nr_end. replace (1 - ncl + 0 * ncol + ncl + - (1)) with 0 by lia.
      unfold two. rewrite <- (len_pre R'). rewrite free_last. cbn [obind].
      assert (N1 : nth_error ((h ++ [mkBlk true R']) ++ [mkBlk false D]) a = Some (mkBlk true R')) by (rewrite nth_error_app1 by (rewrite len_pre; lia); apply nth_last).
      unfold m. erewrite padd_at; [|exact N1|]. 2:{ intros S. destruct (Hs S). destruct SD. unfold blk_size, nr_end. cbn [bk_cells]. lia. }
      cbn [obind]. erewrite padd_at; [|exact N1|]. 2:{ intros S. destruct (Hs S). destruct SD. unfold blk_size, nr_end. cbn [bk_cells]. lia. }
      cbn [obind]. unfold nr_end. replace (0 + 1 + - nrl + nrl + - (1)) with 0 by lia. unfold mfree. rewrite N1. cbn [bk_live bk_cells andb]. rewrite Z.eqb_refl.
      eexists. split. reflexivity. rewrite upd_len, !app_length. cbn [length]. split. lia. split.
      * intros b Hb. rewrite upd_other by (unfold a; lia). rewrite <- app_assoc. apply nth_error_app1; auto.
      * intros b B Hb. destruct (Nat.eq_dec b a) as [->|Nb].
        -- rewrite upd_same by (rewrite !app_length; cbn [length]; unfold a; lia). intros Q. injection Q as <-. reflexivity.
        -- rewrite upd_other by auto. rewrite nth_error_app2 by (rewrite len_pre; unfold a in *; lia). destruct (b - _)%nat as [|[|k]]; cbn; intros Q; try discriminate. injection Q as <-. reflexivity.
Qed.
End Mat.

Lemma empty_arrays strict nl nh ncl nch v h : nh < nl ->
  vector strict nl nh h = Ok (h, Null) /\ free_vector strict v nl nh h = Ok h /\
  matrix strict nl nh ncl nch h = Ok (h, Null) /\ free_matrix strict v nl nh ncl nch h = Ok h.
Proof.
  intros H. unfold vector, free_vector, matrix, free_matrix. destruct (Z.ltb_spec nh nl); [|lia]. cbn [orb]. auto.
Qed.

Lemma vector_fails : exists nl nh h, nl <= nh /\ vector true nl nh h = UB.
Proof. exists 1, 3, []. split. lia. reflexivity. Qed.
