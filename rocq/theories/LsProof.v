(** Proofs about mrqcof: the accumulated matrices are the sums of the specification. *)
From Coq Require Import List Arith Reals Bool Lia Lra.
From Verif Require Import Base RSum GaussModel GaussSpec GaussProof LsModel LsSpec.
Import ListNotations.
Local Open Scope R_scope.

Lemma up_S n : up (S n) = up n ++ [S n].
Proof. unfold up. rewrite seq_S. reflexivity. Qed.

Lemma loop_up_S {S} n (body : nat -> S -> S) s : loop (up (Datatypes.S n)) body s = body (Datatypes.S n) (loop (up n) body s).
Proof. rewrite up_S, loop_app. reflexivity. Qed.

Lemma free_count_rank ia ma : free_count ia ma = rank ia ma.
Proof.
  unfold free_count. induction ma as [|n IH]; auto. rewrite loop_up_S, IH. simpl rank.
  destruct (ia (S n)); lia.
Qed.

(** ranks of free parameters *)
Lemma rank_free ia l : ia l = true -> (1 <= l)%nat -> rank ia l = S (rank ia (l - 1)).
Proof. intros H L. destruct l; [lia|]. simpl. rewrite H. rewrite Nat.sub_0_r. lia. Qed.

Lemma rank_lt ia l m : ia m = true -> (l < m)%nat -> (rank ia l < rank ia m)%nat.
Proof.
  intros H L. rewrite (rank_free ia m) by (auto; lia). pose proof (rank_mono ia l (m - 1) ltac:(lia)). lia.
Qed.

Lemma rank_inj ia l m : ia l = true -> ia m = true -> rank ia l = rank ia m -> l = m.
Proof.
  intros H1 H2 E. destruct (Nat.lt_trichotomy l m) as [L|[L|L]]; auto.
  - pose proof (rank_lt ia l m H2 L). lia.
  - pose proof (rank_lt ia m l H1 L). lia.
Qed.

Lemma rank_pos ia l : ia l = true -> (1 <= l)%nat -> (1 <= rank ia l)%nat.
Proof. intros H L. rewrite rank_free; auto. lia. Qed.

Lemma rank_onto ia ma j : (1 <= j <= rank ia ma)%nat -> exists l, (1 <= l <= ma)%nat /\ ia l = true /\ rank ia l = j.
Proof.
  induction ma as [|n IH]; simpl; intros H; [lia|].
  destruct (le_lt_dec j (rank ia n)) as [L|L].
  - destruct IH as (l & A & B & C); [lia|]. exists l. repeat split; auto; lia.
  - destruct (ia (S n)) eqn:E; [|lia]. exists (S n). repeat split; auto; try lia. simpl. rewrite E. lia.
Qed.

(** sums over the compact index are sums over the free parameters *)
Lemma S1_S n f : S1 (S n) f = S1 n f + f (S n).
Proof. unfold S1. simpl. reflexivity. Qed.

Lemma S1_compact ia ma f : S1 (rank ia ma) f = sum_free ia ma (fun l => f (rank ia l)).
Proof.
  unfold sum_free. induction ma as [|n IH]. reflexivity.
  rewrite (S1_S n), <- IH. simpl rank. destruct (ia (S n)) eqn:E.
  - rewrite Nat.add_1_r, S1_S. reflexivity.
  - rewrite Nat.add_0_r. lra.
Qed.

(** * one point *)
Lemma acc_row_spec (ia : nat -> bool) j wt (dyda : nat -> R) (al : fmat) : forall q,
  let '(k, al') := loop (up q) (fun m s =>
    if ia m then let (k, al) := s : nat * fmat in
      (S k, mset al j (S k) (al j (S k) + wt * dyda m)) else s) (0%nat, al) in
  k = rank ia q /\
  (forall m, (1 <= m <= q)%nat -> ia m = true -> al' j (rank ia m) = al j (rank ia m) + wt * dyda m) /\
  (forall j' k', j' <> j \/ (rank ia q < k')%nat -> al' j' k' = al j' k').
Proof.
  induction q as [|q IH].
  - cbn. repeat split; auto. intros; lia.
  - rewrite loop_up_S. destruct (loop (up q) _ _) as [k al1]. destruct IH as (-> & I1 & I2).
    destruct (ia (S q)) eqn:E.
    + assert (R : rank ia (S q) = S (rank ia q)) by (simpl; rewrite E; lia). split; auto. split.
      * intros m Hm Em. unfold mset. rewrite Nat.eqb_refl. cbn [andb].
        destruct (Nat.eqb_spec (rank ia m) (S (rank ia q))) as [EQ|NE].
        -- assert (m = S q) by (apply (rank_inj ia); auto; congruence). subst m. rewrite R. rewrite I2 by (right; lia). auto.
        -- apply I1; auto. destruct (Nat.eq_dec m (S q)); [subst; congruence|lia].
      * intros j' k' H. unfold mset. rewrite R in H.
        destruct (Nat.eqb_spec j' j); destruct (Nat.eqb_spec k' (S (rank ia q))); cbn [andb]; try (apply I2; lia).
        exfalso. lia.
    + assert (R : rank ia (S q) = rank ia q) by (simpl; rewrite E; lia). split; auto. split.
      * intros m Hm Em. apply I1; auto. destruct (Nat.eq_dec m (S q)); [subst; congruence|lia].
      * intros j' k' H. rewrite R in H. auto.
Qed.

Lemma acc_point_spec (ia : nat -> bool) w dy (dyda : nat -> R) (al : fmat) (be : nat -> R) : forall q,
  let '(j, (al', be')) := loop (up q) (fun l s =>
    if ia l then
      let '(j, (al, be)) := s : nat * (fmat * (nat -> R)) in
      let wt := dyda l * w in
      let j := S j in
      (j, (acc_row ia j l wt dyda al, rset be j (be j + dy * wt)))
    else s) (0%nat, (al, be)) in
  j = rank ia q /\
  (forall l m, (1 <= l <= q)%nat -> ia l = true -> (1 <= m <= l)%nat -> ia m = true ->
     al' (rank ia l) (rank ia m) = al (rank ia l) (rank ia m) + dyda l * w * dyda m) /\
  (forall l, (1 <= l <= q)%nat -> ia l = true -> be' (rank ia l) = be (rank ia l) + dy * (dyda l * w)) /\
  (forall j' k', (rank ia q < j')%nat -> al' j' k' = al j' k' /\ be' j' = be j').
Proof.
  induction q as [|q IH].
  - cbn. repeat split; auto; intros; lia.
  - rewrite loop_up_S. destruct (loop (up q) _ _) as [j [al1 be1]]. destruct IH as (-> & I1 & I2 & I3).
    destruct (ia (S q)) eqn:E.
    + assert (RK : rank ia (S q) = S (rank ia q)) by (simpl; rewrite E; lia).
      unfold acc_row.
      pose proof (acc_row_spec ia (S (rank ia q)) (dyda (S q) * w) dyda al1 (S q)) as AR.
      destruct (loop (up (S q)) _ _) as [k al2]. destruct AR as (_ & A1 & A2). cbn [snd].
      split; auto. split; [|split].
      * intros l m Hl El Hm Em. destruct (Nat.eq_dec l (S q)) as [->|NE].
        -- rewrite RK. rewrite A1 by auto. destruct (I3 (S (rank ia q)) (rank ia m) ltac:(lia)) as [-> _]. auto.
        -- rewrite A2. apply I1; auto; lia. left. rewrite <- RK. intros Q. apply rank_inj in Q; auto.
      * intros l Hl El. unfold rset. destruct (Nat.eqb_spec (rank ia l) (S (rank ia q))) as [EQ|NE].
        -- assert (l = S q) by (apply (rank_inj ia); auto; congruence). subst l. rewrite RK.
           destruct (I3 (S (rank ia q)) O ltac:(lia)) as [_ ->]. auto.
        -- apply I2; auto. destruct (Nat.eq_dec l (S q)); [subst; congruence|lia].
      * intros j' k' H. rewrite RK in H. destruct (I3 j' k' ltac:(lia)) as [Q1 Q2].
        rewrite A2 by (left; lia). unfold rset. destruct (Nat.eqb_spec j' (S (rank ia q))); [lia|]. auto.
    + assert (RK : rank ia (S q) = rank ia q) by (simpl; rewrite E; lia). split; auto. split; [|split].
      * intros l m Hl El. apply I1; auto. destruct (Nat.eq_dec l (S q)); [subst; congruence|lia].
      * intros l Hl El. apply I2; auto. destruct (Nat.eq_dec l (S q)); [subst; congruence|lia].
      * intros j' k' H. rewrite RK in H. auto.
Qed.

Lemma acc_point_val ma ia w dy dyda al be :
  let (al', be') := acc_point ma ia w dy dyda (al, be) in
  (forall l m, (1 <= l <= ma)%nat -> ia l = true -> (1 <= m <= l)%nat -> ia m = true ->
     al' (rank ia l) (rank ia m) = al (rank ia l) (rank ia m) + w * dyda l * dyda m) /\
  (forall l, (1 <= l <= ma)%nat -> ia l = true -> be' (rank ia l) = be (rank ia l) + w * dy * dyda l).
Proof.
  unfold acc_point. pose proof (acc_point_spec ia w dy dyda al be ma) as H.
  destruct (loop (up ma) _ _) as [j [al' be']]. destruct H as (_ & H1 & H2 & _). cbn [snd]. split.
  - intros. rewrite H1 by auto. lra.
  - intros. rewrite H2 by auto. lra.
Qed.

(** * one data set *)
Lemma back0_app l x : back0 (l ++ [x]) = x.
Proof. unfold back0. apply last_last. Qed.

Definition cum_list (f : nat -> R) (pts : list nat) : list R :=
  map (fun k => lsum f (firstn (S k) pts)) (seq 0 (length pts)).

Lemma cum_list_snoc f l x : cum_list f (l ++ [x]) = cum_list f l ++ [lsum f (l ++ [x])].
Proof.
  unfold cum_list. rewrite app_length, Nat.add_1_r, seq_S, map_app. cbn [length map]. f_equal.
  - apply map_ext_in. intros k I. rewrite in_seq in I. rewrite firstn_app.
    replace (S k - length l)%nat with O by lia. rewrite app_nil_r. auto.
  - f_equal. f_equal. apply firstn_all2. rewrite app_length. simpl. lia.
Qed.

Lemma cum_list_last f l : back0 (cum_list f l) = lsum f l.
Proof.
  destruct (rev l) eqn:E.
  - apply (f_equal (@rev nat)) in E. rewrite rev_involutive in E. subst. reflexivity.
  - apply (f_equal (@rev nat)) in E. rewrite rev_involutive in E. simpl in E. subst. rewrite cum_list_snoc, back0_app. auto.
Qed.

Lemma acc_ds_gen ma ia d al be : forall l,
  let '((al', be'), cum) := loop l (fun i s =>
    let '(ab, cum) := s : (fmat * (nat -> R)) * list R in
    let sig2i := d_w d i in
    let dy := d_obs d i - d_pdf d i in
    let dyda := fun j => d_fb d i (j - 1)%nat in
    (acc_point ma ia sig2i dy dyda ab, cum ++ [back0 cum + dy * dy * sig2i])) ((al, be), []) in
  cum = cum_list (fun i => d_w d i * (resid d i * resid d i)) l /\
  (forall a b, (1 <= a <= ma)%nat -> ia a = true -> (1 <= b <= a)%nat -> ia b = true ->
     al' (rank ia a) (rank ia b) = al (rank ia a) (rank ia b) + lsum (fun i => d_w d i * dpar d i a * dpar d i b) l) /\
  (forall a, (1 <= a <= ma)%nat -> ia a = true ->
     be' (rank ia a) = be (rank ia a) + lsum (fun i => d_w d i * resid d i * dpar d i a) l).
Proof.
  induction l as [|x l IH] using rev_ind.
  - cbn. repeat split; auto; intros; lra.
  - rewrite loop_app. destruct (loop l _ _) as [[al1 be1] cum1]. destruct IH as (-> & I1 & I2).
    rewrite loop_cons, loop_nil. cbv zeta beta iota.
    pose proof (acc_point_val ma ia (d_w d x) (resid d x) (dpar d x) al1 be1) as AP. unfold resid at 1 in AP. unfold dpar at 1 in AP.
    destruct (acc_point ma ia (d_w d x) (d_obs d x - d_pdf d x) _ (al1, be1)) as [al2 be2]. destruct AP as [P1 P2].
    split; [|split].
    + rewrite cum_list_snoc, cum_list_last, lsum_app. simpl. unfold resid. f_equal. f_equal. lra.
    + intros a b Ha Ea Hb Eb. rewrite P1, I1 by auto. rewrite lsum_app. simpl. lra.
    + intros a Ha Ea. rewrite P2, I2 by auto. rewrite lsum_app. simpl. lra.
Qed.

Lemma acc_ds_spec ma ia d al be :
  let '((al', be'), cum) := acc_ds ma ia d (al, be) in
  cum = cum_chisq d /\
  (forall a b, (1 <= a <= ma)%nat -> ia a = true -> (1 <= b <= a)%nat -> ia b = true ->
     al' (rank ia a) (rank ia b) = al (rank ia a) (rank ia b) + lsum (fun i => d_w d i * dpar d i a * dpar d i b) (points d)) /\
  (forall a, (1 <= a <= ma)%nat -> ia a = true ->
     be' (rank ia a) = be (rank ia a) + lsum (fun i => d_w d i * resid d i * dpar d i a) (points d)).
Proof. apply acc_ds_gen. Qed.

(** * all data sets *)
Lemma acc_all_gen ma ia al be : forall ds,
  let '((al', be'), chisq, cums) := acc_all ma ia ds (al, be) in
  chisq = chisq_of ds /\ cums = map cum_chisq ds /\
  (forall a b, (1 <= a <= ma)%nat -> ia a = true -> (1 <= b <= a)%nat -> ia b = true ->
     al' (rank ia a) (rank ia b) = al (rank ia a) (rank ia b) + curvature ds a b) /\
  (forall a, (1 <= a <= ma)%nat -> ia a = true -> be' (rank ia a) = be (rank ia a) + gradient ds a).
Proof.
  unfold acc_all, chisq_of, curvature, gradient. induction ds as [|d ds IH] using rev_ind.
  - cbn. repeat split; auto; intros; lra.
  - rewrite fold_left_app. destruct (fold_left _ ds _) as [[[al1 be1] c1] cums1]. destruct IH as (-> & -> & I1 & I2).
    cbn [fold_left]. pose proof (acc_ds_spec ma ia d al1 be1) as AD.
    destruct (acc_ds ma ia d (al1, be1)) as [[al2 be2] cum]. destruct AD as (-> & P1 & P2).
    split; [|split; [|split]].
    + rewrite lsum_app. simpl. unfold cum_chisq. fold (cum_list (fun i => d_w d i * (resid d i * resid d i)) (points d)).
      rewrite cum_list_last. unfold ds_chisq. lra.
    + rewrite map_app. reflexivity.
    + intros a b Ha Ea Hb Eb. rewrite P1, I1 by auto. rewrite lsum_app. simpl. lra.
    + intros a Ha Ea. rewrite P2, I2 by auto. rewrite lsum_app. simpl. lra.
Qed.

(** * zeroing and symmetric filling *)
Lemma inr_0 c : inr 0 c = false.
Proof. destruct (inr 0 c) eqn:E; auto. apply inr_spec in E. lia. Qed.

Lemma mrq_zero_spec mfit al be :
  let (al', be') := mrq_zero mfit al be in
  (forall j k, (1 <= k <= j)%nat -> (j <= mfit)%nat -> al' j k = 0) /\
  (forall j, (1 <= j <= mfit)%nat -> be' j = 0).
Proof.
  unfold mrq_zero. induction mfit as [|n IH]. { cbn. split; intros; lia. }
  rewrite loop_up_S. destruct (loop (up n) _ _) as [al1 be1]. destruct IH as [I1 I2].
  assert (Z : forall q a r c, loop (up q) (fun k al => mset al (S n) k 0) a r c =
     if ((r =? S n)%nat && inr q c)%bool then 0 else a r c).
  { induction q as [|q IH]; intros a r c. { rewrite inr_0, andb_false_r. reflexivity. }
    rewrite loop_up_S. unfold mset at 1. rewrite IH. destruct (Nat.eqb_spec r (S n)); cbn [andb]; auto.
    destruct (Nat.eqb_spec c (S q)).
    - subst. rewrite (proj2 (inr_spec (S q) (S q))) by lia. auto.
    - replace (inr (S q) c) with (inr q c); auto. apply eq_true_iff_eq. rewrite !inr_spec. lia. }
  split.
  - intros j k Hk Hj. rewrite Z. destruct (Nat.eqb_spec j (S n)); cbn [andb].
    + subst. rewrite (proj2 (inr_spec (S n) k)) by lia. auto.
    + apply I1; lia.
  - intros j Hj. unfold rset. destruct (Nat.eqb_spec j (S n)); auto. apply I2. lia.
Qed.

Lemma sym_fill_spec mfit al :
  (forall j k, (1 <= k <= j)%nat -> (j <= mfit)%nat ->
     sym_fill mfit al j k = al j k /\ sym_fill mfit al k j = al j k).
Proof.
  unfold sym_fill.
  assert (I : forall q j a, (j = q + 1)%nat -> forall r c, loop (up q) (fun k al => mset al k j (al j k)) a r c =
     if ((c =? j)%nat && inr q r)%bool then a j r else a r c).
  { intros q. induction q as [|q IH]. { intros. rewrite inr_0, andb_false_r. reflexivity. }
    assert (G : forall p j a, (p < j)%nat -> forall r c, loop (up p) (fun k al => mset al k j (al j k)) a r c =
     if ((c =? j)%nat && inr p r)%bool then a j r else a r c).
    { induction p as [|p IHp]; intros j a Hp r c. { rewrite inr_0, andb_false_r. reflexivity. }
      rewrite loop_up_S. unfold mset at 1. rewrite !IHp by lia.
      assert (inr p j = false) as Q. { destruct (inr p j) eqn:Q; auto. apply inr_spec in Q. lia. }
      destruct (Nat.eqb_spec c j); subst; rewrite ?andb_true_r, ?andb_false_r; cbn [andb]; auto.
      destruct (Nat.eqb_spec r (S p)).
      - subst. cbn [andb]. rewrite (proj2 (inr_spec (S p) (S p))) by lia.
        rewrite Q. rewrite andb_false_r. auto.
      - cbn [andb]. replace (inr (S p) r) with (inr p r); auto. apply eq_true_iff_eq. rewrite !inr_spec. lia. }
    intros j a -> r c. apply G. lia. }
  assert (H : forall n, (n <= mfit - 1)%nat -> forall r c,
    loop (seq 2 n) (fun j al => loop (up (j - 1)) (fun k al => mset al k j (al j k)) al) al r c =
    if ((r <? c) && (1 <=? r) && (c <=? S n))%nat%bool then al c r else al r c).
  { induction n as [|n IH]; intros Ln r c.
    - cbn [seq]. rewrite loop_nil. destruct (Nat.ltb_spec r c); cbn [andb]; auto.
      destruct (Nat.leb_spec 1 r); cbn [andb]; auto. destruct (Nat.leb_spec c 1); auto. lia.
    - rewrite seq_S, loop_app, loop_cons, loop_nil.
      rewrite I by lia. rewrite !IH by lia.
      destruct (Nat.eqb_spec c (2 + n)) as [->|NE]; cbn [andb].
      + replace (2 + n - 1)%nat with (S n) by lia.
        destruct (inr (S n) r) eqn:Er.
        * apply inr_spec in Er. destruct (Nat.ltb_spec (2 + n) r); [lia|]. cbn [andb].
          destruct (Nat.ltb_spec r (2 + n)); [|lia]. destruct (Nat.leb_spec 1 r); [|lia].
          destruct (Nat.leb_spec (2 + n) (S (S n))); [|lia]. reflexivity.
        * assert (~ (1 <= r <= S n)%nat). { intros Q. apply inr_spec in Q. congruence. }
          destruct (Nat.ltb_spec r (2 + n)); destruct (Nat.leb_spec 1 r); cbn [andb]; auto. lia.
      + destruct (Nat.ltb_spec r c); destruct (Nat.leb_spec 1 r); destruct (Nat.leb_spec c (S n));
          destruct (Nat.leb_spec c (S (S n))); cbn [andb]; auto; lia. }
  intros j k Hk Hj. rewrite !H by lia. split.
  - destruct (Nat.ltb_spec j k); [lia|]. reflexivity.
  - destruct (Nat.ltb_spec k j); destruct (Nat.leb_spec 1 k); destruct (Nat.leb_spec j (S (mfit - 1))); cbn [andb]; auto; try lia.
    replace k with j by lia. auto.
Qed.

(** * mrqcof *)
Definition normal_eq (ia : nat -> bool) (ma : nat) (ds : list dsval) (al : fmat) (be : nat -> R) : Prop :=
  (forall l m, (1 <= l <= ma)%nat -> ia l = true -> (1 <= m <= ma)%nat -> ia m = true ->
     al (rank ia l) (rank ia m) = curvature ds l m) /\
  (forall l, (1 <= l <= ma)%nat -> ia l = true -> be (rank ia l) = gradient ds l).

Lemma curvature_sym ds l m : curvature ds l m = curvature ds m l.
Proof. unfold curvature. apply lsum_ext. intros d _. apply lsum_ext. intros i _. lra. Qed.

Lemma mrqcof_spec o a al be :
  match mrqcof o a al be with
  | (o', al', be', Ok c) => exists ds, f_theory o a = Ok ds /\ c = chisq_of ds /\
      o' = set_cum (set_p o a) (map cum_chisq ds) /\ normal_eq (f_ia o) (f_ma o) ds al' be'
  | (o', _, _, Err e) => f_theory o a = Err e /\ o' = set_p o a
  | (o', _, _, UB) => f_theory o a = UB /\ o' = set_p o a
  | (o', _, _, NoFuel) => f_theory o a = NoFuel /\ o' = set_p o a
  end.
Proof.
  unfold mrqcof. rewrite free_count_rank. pose proof (mrq_zero_spec (rank (f_ia o) (f_ma o)) al be) as Z.
  destruct (mrq_zero _ al be) as [al0 be0]. destruct Z as [Z1 Z2].
  change (f_theory (set_p o a)) with (f_theory o). change (f_ma (set_p o a)) with (f_ma o). change (f_ia (set_p o a)) with (f_ia o).
  destruct (f_theory o a) as [ds|e| |]; auto.
  pose proof (acc_all_gen (f_ma o) (f_ia o) al0 be0 ds) as A.
  destruct (acc_all (f_ma o) (f_ia o) ds (al0, be0)) as [[[al1 be1] c] cums]. destruct A as (-> & -> & A1 & A2).
  exists ds. split; auto. split; auto. split; auto. split.
  - intros l m Hl El Hm Em.
    assert (LR : (rank (f_ia o) l <= rank (f_ia o) (f_ma o))%nat) by (apply rank_mono; lia).
    assert (MR : (rank (f_ia o) m <= rank (f_ia o) (f_ma o))%nat) by (apply rank_mono; lia).
    pose proof (rank_pos _ _ El ltac:(lia)). pose proof (rank_pos _ _ Em ltac:(lia)).
    destruct (le_lt_dec m l) as [L|L].
    + pose proof (rank_mono (f_ia o) m l L).
      destruct (sym_fill_spec (rank (f_ia o) (f_ma o)) al1 (rank (f_ia o) l) (rank (f_ia o) m)) as [-> _]; try lia.
      rewrite A1 by (auto; lia). rewrite Z1 by lia. lra.
    + pose proof (rank_mono (f_ia o) l m ltac:(lia)).
      destruct (sym_fill_spec (rank (f_ia o) (f_ma o)) al1 (rank (f_ia o) m) (rank (f_ia o) l)) as [_ ->]; try lia.
      rewrite A1 by (auto; lia). rewrite Z1 by lia. rewrite curvature_sym. lra.
  - intros l Hl El. pose proof (rank_pos _ _ El ltac:(lia)). pose proof (rank_mono (f_ia o) l (f_ma o) ltac:(lia)).
    rewrite A2 by auto. rewrite Z2 by lia. lra.
Qed.
