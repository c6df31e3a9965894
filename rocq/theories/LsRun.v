(** Whole refinements, the quadratic form of the normal equations, reports. *)
From Coq Require Import List Arith Reals Bool Lia Lra Sorting.Sorted.
From Verif Require Import Base RSum GaussModel GaussSpec GaussProof LsModel LsSpec LsProof CtlProof LsStep.
Import ListNotations.
Local Open Scope R_scope.


Lemma fresh_false running c : fresh running c -> (running && negb (c_iter c =? 0)%nat)%bool = false.
Proof. intros [-> | ->]; auto. rewrite andb_false_r. auto. Qed.

Lemma step_fresh toler running c st o : fresh running c ->
  let '(running', c', x', r) := ls_step toler running c (st, o) in
  same_session o (snd x') /\ fixed_kept o (snd x') /\ running' = true /\ r <> Ok true /\
  (r = Ok false -> c_iter c' = 1%nat /\ f_setup o = Ok tt /\
     exists ds0, f_theory o (f_p o) = Ok ds0 /\ under_way o ds0 x' /\ chisq_is_own (snd x')).
Proof.
  intros F. unfold ls_step, refine_step. rewrite (fresh_false _ _ F).
  pose proof (ls_setup_spec st o) as SS. destruct (ls_setup (st, o)) as [[st1 o1] r1].
  cbn [fst snd] in SS. destruct SS as (-> & SE & P & LM & D & RS).
  assert (FK : fixed_kept o o1) by (intros l _; rewrite P; auto).
  destruct r1 as [[]|e| |]; try (cbn [snd]; repeat split; auto; try discriminate; apply SE).
  change (need_more (mkC 0 0)) with true. cbv iota.
  pose proof (ls_iterate_first toler st o1 ltac:(rewrite LM; lra) (D eq_refl)) as IT.
  destruct (ls_iterate toler (st, o1)) as [x2 r2]. destruct IT as (S2 & F2 & G).
  assert (S3 : same_session o (snd x2)) by exact (same_trans _ _ _ SE S2).
  assert (F3 : fixed_kept o (snd x2)) by exact (fixed_trans _ _ _ SE FK F2).
  destruct r2 as [b|e| |]; try (split; [exact S3|]; split; [exact F3|]; split; [reflexivity|]; split; discriminate).
  split; [exact S3|]. split; [exact F3|]. split; [reflexivity|]. split; [discriminate|]. intros _. split; [reflexivity|]. split; [auto|].
  destruct (G b eq_refl) as (ds0 & TH & U & OWN). exists ds0. destruct SE as (E1 & E2 & E3 & E4). split. rewrite <- E3, <- P. auto.
  split; auto. destruct U as [ds s U1 U2 U3 U4 U5]. apply UW with ds s; auto. rewrite P in U5. auto.
Qed.

Lemma step_next toler c o0 ds0 x : c_iter c <> 0%nat -> under_way o0 ds0 x ->
  let '(running', c', x', r) := ls_step toler true c x in
  same_session o0 (snd x') /\ fixed_kept o0 (snd x') /\
  (r = Ok false -> running' = true /\ c_iter c' = S (c_iter c) /\ under_way o0 ds0 x' /\ improves (snd x) (snd x') /\ chisq_is_own (snd x')) /\
  (r = Ok true -> running' = false /\ f_p (snd x') = f_p (snd x) /\ f_chisq (snd x') = f_chisq (snd x) /\
     f_cum (snd x') = f_cum (snd x) /\ final_report o0 ds0 (snd x')).
Proof.
  intros NZ U. unfold ls_step, refine_step.
  destruct (Nat.eqb_spec (c_iter c) 0); [congruence|]. cbn [negb andb]. cbv iota.
  destruct (need_more c).
  - pose proof (ls_iterate_next toler o0 ds0 x U) as IT. destruct (ls_iterate toler x) as [x2 r2]. destruct IT as (S2 & F2 & G).
    destruct r2 as [b|e| |]; split; auto; split; auto; split; try discriminate.
    intros _. destruct (G b eq_refl) as (A & B & C). repeat split; auto.
  - pose proof (ls_finish_spec o0 ds0 x U) as FI. destruct (ls_finish x) as [x2 r2]. destruct FI as (S2 & F2 & P & C & G).
    destruct r2 as [[]|e| |]; try contradiction; split; auto; split; auto; split; try discriminate.
    intros _. destruct G as (G1 & G2 & G3). repeat split; auto.
Qed.

Lemma refine_next toler o0 ds0 : forall fuel c x, c_iter c <> 0%nat -> under_way o0 ds0 x ->
  let '(running', c', x', r) := ls_refine toler fuel true c x in
  same_session o0 (snd x') /\ fixed_kept o0 (snd x') /\ (r = Ok tt -> final_report o0 ds0 (snd x') /\ running' = false).
Proof.
  induction fuel as [|n IH]; intros c x NZ U.
  - cbn. destruct U. split; auto. split; auto. discriminate.
  - unfold ls_refine. cbn [refine]. pose proof (step_next toler c o0 ds0 x NZ U) as SN. unfold ls_step in SN.
    destruct (refine_step ls_setup (ls_iterate toler) ls_finish true c x) as [[[r1 c1] x1] [[|]|e| |]].
    + destruct SN as (S1 & F1 & _ & G). destruct (G eq_refl) as (A & B & C & D & E). auto.
    + destruct SN as (S1 & F1 & G & _). destruct (G eq_refl) as (-> & B & C & D & E). apply IH; auto. rewrite B. lia.
    + destruct SN as (S1 & F1 & _). split; auto. split; auto. discriminate.
    + destruct SN as (S1 & F1 & _). split; auto. split; auto. discriminate.
    + destruct SN as (S1 & F1 & _). split; auto. split; auto. discriminate.
Qed.

Lemma refine_fresh toler fuel running c st o : fresh running c ->
  let '(running', c', x', r) := ls_refine toler fuel running c (st, o) in
  same_session o (snd x') /\ fixed_kept o (snd x') /\
  (r = Ok tt -> exists ds0, f_theory o (f_p o) = Ok ds0 /\ final_report o ds0 (snd x') /\ running' = false).
Proof.
  intros F. destruct fuel as [|n].
  - cbn. split. apply same_refl. split. intros l _; auto. discriminate.
  - unfold ls_refine. cbn [refine]. pose proof (step_fresh toler running c st o F) as SF. unfold ls_step in SF.
    destruct (refine_step ls_setup (ls_iterate toler) ls_finish running c (st, o)) as [[[r1 c1] x1] [[|]|e| |]].
    + destruct SF as (_ & _ & _ & NT & _). congruence.
    + destruct SF as (S1 & F1 & -> & _ & G). destruct (G eq_refl) as (B & _ & ds0 & TH & U & _).
      assert (NZ : c_iter c1 <> 0%nat) by lia.
      pose proof (refine_next toler o ds0 n c1 x1 NZ U) as RN. unfold ls_refine in RN.
      destruct (refine ls_setup (ls_iterate toler) ls_finish n true c1 x1) as [[[r2 c2] x2] r].
      destruct RN as (A & B' & C). split; auto. split; auto. intros ->. exists ds0. destruct (C eq_refl). auto.
    + destruct SF as (S1 & F1 & _). split; auto. split; auto. discriminate.
    + destruct SF as (S1 & F1 & _). split; auto. split; auto. discriminate.
    + destruct SF as (S1 & F1 & _). split; auto. split; auto. discriminate.
Qed.

(** * step by step observation *)

Lemma steps_under_way toler running c st o : fresh running c -> forall n running' c' x',
  ls_steps toler (S n) running c (st, o) = Some (running', c', x') ->
  running' = true /\ c_iter c' = S n /\ exists ds0, f_theory o (f_p o) = Ok ds0 /\ under_way o ds0 x' /\ chisq_is_own (snd x').
Proof.
  intros F. induction n as [|n IH]; intros running' c' x' H.
  - cbn [ls_steps] in H. pose proof (step_fresh toler running c st o F) as SF.
    destruct (ls_step toler running c (st, o)) as [[[r1 c1] x1] [[|]|e| |]]; try discriminate. inversion H; subst.
    destruct SF as (_ & _ & -> & _ & G). destruct (G eq_refl) as (A & _ & B). auto.
  - change (ls_steps toler (S (S n)) running c (st, o)) with
      (match ls_steps toler (S n) running c (st, o) with
           | Some (running, c, x) =>
               match ls_step toler running c x with
               | (running', c', x', Ok false) => Some (running', c', x')
               | _ => None
               end
           | None => None
           end) in H.
    destruct (ls_steps toler (S n) running c (st, o)) as [[[r0 c0] x0]|]; [|discriminate].
    destruct (IH _ _ _ eq_refl) as (-> & I0 & ds0 & TH & U & _).
    pose proof (step_next toler c0 o ds0 x0 ltac:(lia) U) as SN.
    destruct (ls_step toler true c0 x0) as [[[r1 c1] x1] [[|]|e| |]]; try discriminate. inversion H; subst.
    destruct SN as (_ & _ & G & _). destruct (G eq_refl) as (-> & I1 & U1 & _ & OWN).
    split; auto. split. lia. exists ds0. auto.
Qed.

Lemma steps_observed toler running c st o n running1 c1 x1 running2 c2 x2 r : fresh running c ->
  ls_steps toler (S n) running c (st, o) = Some (running1, c1, x1) ->
  ls_step toler running1 c1 x1 = (running2, c2, x2, r) ->
  fixed_kept o (snd x2) /\
  (r = Ok false -> improves (snd x1) (snd x2) /\ chisq_is_own (snd x1) /\ chisq_is_own (snd x2)) /\
  (r = Ok true -> f_p (snd x2) = f_p (snd x1) /\ f_chisq (snd x2) = f_chisq (snd x1) /\ chisq_is_own (snd x2)).
Proof.
  intros F H S. destruct (steps_under_way toler running c st o F n _ _ _ H) as (-> & I1 & ds0 & TH & U & OWN).
  pose proof (step_next toler c1 o ds0 x1 ltac:(lia) U) as SN. rewrite S in SN.
  destruct SN as (SS & FK & G1 & G2). split; auto. split.
  - intros E. destruct (G1 E) as (_ & _ & _ & IM & OW). auto.
  - intros E. destruct (G2 E) as (_ & P & C & _ & FR). split; auto. split; auto.
    destruct FR as (ds & TH' & CQ & _). exists ds. destruct SS as (_ & _ & -> & _). auto.
Qed.

(** * quadratic form *)
Lemma S1_lsum {A} n (f : nat -> A -> R) L : S1 n (fun l => lsum (f l) L) = lsum (fun a => S1 n (fun l => f l a)) L.
Proof.
  induction L as [|a L IH]; simpl.
  - rewrite (S1_ext n _ (fun _ => 0 * 0)) by (intros; lra). rewrite S1_scal. lra.
  - rewrite S1_plus, IH. auto.
Qed.

Lemma sum_free_lsum {A} ia ma (f : nat -> A -> R) L :
  sum_free ia ma (fun l => lsum (f l) L) = lsum (fun a => sum_free ia ma (fun l => f l a)) L.
Proof.
  unfold sum_free. rewrite <- S1_lsum. apply S1_ext. intros l _. destruct (ia l); auto.
  induction L; simpl; auto. lra.
Qed.


Lemma curvature_along ia ma ds x l :
  sum_free ia ma (fun m => curvature ds l m * x m) =
  lsum (fun d => lsum (fun i => d_w d i * dpar d i l * along ia ma d i x) (points d)) ds.
Proof.
  unfold curvature, along.
  rewrite (sum_free_ext ia ma _ (fun m => lsum (fun d => lsum (fun i => (d_w d i * dpar d i l) * (dpar d i m * x m)) (points d)) ds)).
  - rewrite sum_free_lsum. apply lsum_ext. intros d _. rewrite sum_free_lsum. apply lsum_ext. intros i _.
    rewrite sum_free_scal. auto.
  - intros m _ _. rewrite Rmult_comm, <- lsum_scal. apply lsum_ext. intros d _. rewrite <- lsum_scal. apply lsum_ext. intros; lra.
Qed.

Lemma quadratic_form ia ma ds x :
  sum_free ia ma (fun l => x l * sum_free ia ma (fun m => curvature ds l m * x m)) =
  lsum (fun d => lsum (fun i => d_w d i * (along ia ma d i x * along ia ma d i x)) (points d)) ds.
Proof.
  rewrite (sum_free_ext ia ma _ (fun l => lsum (fun d => lsum (fun i => (d_w d i * along ia ma d i x) * (dpar d i l * x l)) (points d)) ds)).
  - rewrite sum_free_lsum. apply lsum_ext. intros d _. rewrite sum_free_lsum. apply lsum_ext. intros i _.
    rewrite sum_free_scal. fold (along ia ma d i x). lra.
  - intros l _ _. rewrite curvature_along. rewrite <- lsum_scal. apply lsum_ext. intros d _. rewrite <- lsum_scal.
    apply lsum_ext. intros; lra.
Qed.


Lemma lsum_zero_terms {A} (f : A -> R) L : (forall a, In a L -> 0 <= f a) -> lsum f L = 0 -> forall a, In a L -> f a = 0.
Proof.
  induction L as [|a L IH]; intros N Z b []; simpl in Z.
  - subst. pose proof (N b (or_introl eq_refl)). pose proof (lsum_nonneg f L (fun c I => N c (or_intror I))). lra.
  - apply IH; auto. intros; apply N; right; auto. pose proof (N a (or_introl eq_refl)).
    pose proof (lsum_nonneg f L (fun c I => N c (or_intror I))). lra.
Qed.

Lemma sq_nonneg x : 0 <= x * x. Proof. apply Rle_0_sqr. Qed.

Lemma quadratic_nonneg ia ma ds x : weights_ok ds ->
  0 <= sum_free ia ma (fun l => x l * sum_free ia ma (fun m => curvature ds l m * x m)).
Proof.
  intros W. rewrite quadratic_form. apply lsum_nonneg. intros d Id. apply lsum_nonneg. intros i Ii.
  apply Rmult_le_pos. apply W; auto. apply sq_nonneg.
Qed.

Lemma curvature_diag_nonneg ds l : weights_ok ds -> 0 <= curvature ds l l.
Proof.
  intros W. apply lsum_nonneg. intros d Id. apply lsum_nonneg. intros i Ii. rewrite Rmult_assoc.
  apply Rmult_le_pos. apply W; auto. apply sq_nonneg.
Qed.


Lemma diag_zero_iff ds l : weights_ok ds -> (curvature ds l l = 0 <-> no_influence ds l).
Proof.
  intros W. split.
  - intros Z d i Id Ii NZ.
    assert (Z1 : lsum (fun i => d_w d i * dpar d i l * dpar d i l) (points d) = 0).
    { apply (lsum_zero_terms (fun d => lsum (fun i => d_w d i * dpar d i l * dpar d i l) (points d)) ds); auto. intros d' Id'. apply lsum_nonneg. intros i' Ii'. rewrite Rmult_assoc.
      apply Rmult_le_pos. apply W; auto. apply sq_nonneg. }
    assert (Z2 : d_w d i * dpar d i l * dpar d i l = 0).
    { apply (lsum_zero_terms (fun i => d_w d i * dpar d i l * dpar d i l) (points d)); auto. intros i' Ii'. rewrite Rmult_assoc.
      apply Rmult_le_pos. apply W; auto. apply sq_nonneg. }
    apply Rmult_integral in Z2 as [Z2|Z2]; auto. apply Rmult_integral in Z2 as [Z2|Z2]; auto. congruence.
  - intros N. unfold curvature. rewrite (lsum_ext _ (fun _ => 0)).
    + clear. induction ds; simpl; auto. lra.
    + intros d Id. rewrite (lsum_ext _ (fun _ => 0)).
      * clear. induction (points d); simpl; auto. lra.
      * intros i Ii. destruct (Req_dec (d_w d i) 0) as [->|NZ]. lra. rewrite (N d i Id Ii NZ). lra.
Qed.

Lemma sum_free_zero_terms ia ma f : (forall l, 0 <= f l) -> sum_free ia ma f = 0 ->
  forall l, (1 <= l <= ma)%nat -> ia l = true -> f l = 0.
Proof.
  unfold sum_free. induction ma as [|n IH]; intros N Z l Hl El; [lia|].
  rewrite S1_S in Z.
  assert (P : 0 <= S1 n (fun l => if ia l then f l else 0)).
  { unfold S1. apply rsum_nonneg. intros i _. destruct (ia (S i)); auto. lra. }
  assert (Q : 0 <= if ia (S n) then f (S n) else 0). { destruct (ia (S n)); auto. lra. }
  destruct (Nat.eq_dec l (S n)) as [->|NE].
  - rewrite El in *. lra.
  - apply IH; auto. lra. lia.
Qed.

(** with damping, the equations are singular exactly when a free parameter has no influence *)
Lemma damped_singular_influence ia ma ds lam : weights_ok ds -> 0 < lam ->
  (damped_singular ia ma ds lam <-> exists l, (1 <= l <= ma)%nat /\ ia l = true /\ no_influence ds l).
Proof.
  intros W LP. split.
  - intros (x & (l & Hl & El & NZ) & D). exists l. split; auto. split; auto.
    apply diag_zero_iff; auto.
    assert (E : sum_free ia ma (fun l => x l * sum_free ia ma (fun m => curvature ds l m * x m)) +
                lam * sum_free ia ma (fun l => curvature ds l l * (x l * x l)) = 0).
    { rewrite <- sum_free_scal, <- sum_free_plus.
      rewrite (sum_free_ext ia ma _ (fun _ => 0 * 0)). rewrite sum_free_scal. lra.
      intros k Hk Ek. specialize (D k Hk Ek). cbv beta in D.
      replace (x k * sum_free ia ma (fun m => curvature ds k m * x m) + lam * (curvature ds k k * (x k * x k)))
        with (x k * (sum_free ia ma (fun m => curvature ds k m * x m) + lam * curvature ds k k * x k)) by lra.
      rewrite D. lra. }
    pose proof (quadratic_nonneg ia ma ds x W).
    assert (P : forall k, 0 <= curvature ds k k * (x k * x k)).
    { intros k. apply Rmult_le_pos. apply curvature_diag_nonneg; auto. apply sq_nonneg. }
    assert (Q : 0 <= sum_free ia ma (fun l => curvature ds l l * (x l * x l))).
    { unfold sum_free, S1. apply rsum_nonneg. intros i _. destruct (ia (S i)); auto. lra. }
    assert (Z : sum_free ia ma (fun l => curvature ds l l * (x l * x l)) = 0).
    { assert (0 <= lam * sum_free ia ma (fun l => curvature ds l l * (x l * x l))) by (apply Rmult_le_pos; lra).
      assert (Y : lam * sum_free ia ma (fun l => curvature ds l l * (x l * x l)) = 0) by lra.
      apply Rmult_integral in Y as [Y|Y]; auto. lra. }
    pose proof (sum_free_zero_terms ia ma _ P Z l Hl El) as T. cbv beta in T.
    apply Rmult_integral in T as [T|T]; auto. apply Rmult_integral in T as [T|T]; tauto.
  - intros (l & Hl & El & N). exists (fun k => if (k =? l)%nat then 1 else 0). split.
    + exists l. rewrite Nat.eqb_refl. repeat split; auto; lra || lia.
    + intros k Hk Ek.
      assert (C : curvature ds k l = 0).
      { unfold curvature. rewrite (lsum_ext _ (fun _ => 0)).
        - clear. induction ds; simpl; auto. lra.
        - intros d Id. rewrite (lsum_ext _ (fun _ => 0)).
          + clear. induction (points d); simpl; auto. lra.
          + intros i Ii. destruct (Req_dec (d_w d i) 0) as [->|NZ]. lra. rewrite (N d i Id Ii NZ). lra. }
      rewrite (sum_free_single ia ma _ l); auto.
      * rewrite Nat.eqb_refl, C. destruct (Nat.eqb_spec k l). subst. rewrite C. lra. lra.
      * intros m _ _ NE. destruct (Nat.eqb_spec m l); [congruence|]. lra.
Qed.

(** without damping: exactly when some combination of free parameters has no influence *)
Lemma undamped_singular ia ma ds : weights_ok ds ->
  (damped_singular ia ma ds 0 <-> exists x, (exists l, (1 <= l <= ma)%nat /\ ia l = true /\ x l <> 0) /\
     forall d i, In d ds -> In i (points d) -> d_w d i <> 0 -> along ia ma d i x = 0).
Proof.
  intros W. split.
  - intros (x & NZ & D). exists x. split; auto.
    assert (E : sum_free ia ma (fun l => x l * sum_free ia ma (fun m => curvature ds l m * x m)) = 0).
    { rewrite (sum_free_ext ia ma _ (fun _ => 0 * 0)). rewrite sum_free_scal. lra.
      intros k Hk Ek. specialize (D k Hk Ek). cbv beta in D.
      replace (sum_free ia ma (fun m => curvature ds k m * x m)) with 0 by lra. lra. }
    rewrite quadratic_form in E. intros d i Id Ii WN.
    assert (P : forall d, In d ds -> forall i, In i (points d) -> 0 <= d_w d i * (along ia ma d i x * along ia ma d i x)).
    { intros. apply Rmult_le_pos. apply W; auto. apply sq_nonneg. }
    assert (Z1 : lsum (fun i => d_w d i * (along ia ma d i x * along ia ma d i x)) (points d) = 0).
    { apply (lsum_zero_terms (fun d => lsum (fun i => d_w d i * (along ia ma d i x * along ia ma d i x)) (points d)) ds (fun d Hd => lsum_nonneg _ _ (P d Hd)) E d Id). }
    pose proof (lsum_zero_terms _ _ (P d Id) Z1 i Ii) as Z2. cbv beta in Z2.
    apply Rmult_integral in Z2 as [Z2|Z2]; [congruence|]. apply Rmult_integral in Z2 as [Z2|Z2]; auto.
  - intros (x & NZ & A). exists x. split; auto. intros k Hk Ek. rewrite curvature_along.
    rewrite (lsum_ext _ (fun _ => 0)).
    + assert (lsum (fun _ : dsval => 0) ds = 0) as ->. { clear. induction ds; simpl; auto. lra. } lra.
    + intros d Id. rewrite (lsum_ext _ (fun _ => 0)).
      * clear. induction (points d); simpl; auto. lra.
      * intros i Ii. destruct (Req_dec (d_w d i) 0) as [->|WN]. lra. rewrite (A d i Id Ii WN). lra.
Qed.

(** the step points downhill *)
Lemma step_downhill ia ma ds lam x : weights_ok ds -> 0 <= lam -> damped ia ma ds lam x (gradient ds) ->
  0 <= sum_free ia ma (fun l => gradient ds l * x l).
Proof.
  intros W LP D.
  rewrite (sum_free_ext ia ma _ (fun l => x l * sum_free ia ma (fun m => curvature ds l m * x m) + lam * (curvature ds l l * (x l * x l)))).
  - rewrite sum_free_plus, sum_free_scal. pose proof (quadratic_nonneg ia ma ds x W).
    assert (0 <= sum_free ia ma (fun l => curvature ds l l * (x l * x l))).
    { unfold sum_free, S1. apply rsum_nonneg. intros i _. destruct (ia (S i)); [|lra].
      apply Rmult_le_pos. apply curvature_diag_nonneg; auto. apply sq_nonneg. }
    assert (0 <= lam * sum_free ia ma (fun l => curvature ds l l * (x l * x l))) by (apply Rmult_le_pos; auto). lra.
  - intros l Hl El. rewrite <- (D l Hl El). lra.
Qed.

(** * cumulative residuals *)
Lemma cum_list_mono f l : (forall i, In i l -> 0 <= f i) -> forall j k, (j <= k < length l)%nat ->
  nth j (cum_list f l) 0 <= nth k (cum_list f l) 0.
Proof.
  intros N j k H. unfold cum_list.
  assert (V : forall q, (q < length l)%nat -> nth q (map (fun k => lsum f (firstn (S k) l)) (seq 0 (length l))) 0 = lsum f (firstn (S q) l)).
  { intros q Hq. rewrite (nth_indep _ 0 (lsum f (firstn (S 0) l))) by (rewrite map_length, seq_length; auto).
    rewrite (map_nth (fun k => lsum f (firstn (S k) l))). rewrite seq_nth by auto. auto. }
  rewrite !V by lia.
  replace (firstn (S k) l) with (firstn (S j) l ++ firstn (k - j) (skipn (S j) l)).
  - rewrite lsum_app. assert (0 <= lsum f (firstn (k - j) (skipn (S j) l))); [|lra].
    apply lsum_nonneg. intros i Ii. apply N.
    rewrite <- (firstn_skipn (S j) l). apply in_or_app. right.
    rewrite <- (firstn_skipn (k - j) (skipn (S j) l)). apply in_or_app. left. auto.
  - rewrite <- (firstn_skipn (S j) l) at 3. rewrite firstn_app. rewrite firstn_firstn, firstn_length.
    replace (Nat.min (S k) (S j)) with (S j) by lia. f_equal. f_equal. lia.
Qed.

Lemma cum_length d : length (cum_chisq d) = length (points d).
Proof. unfold cum_chisq. rewrite map_length, seq_length. auto. Qed.

Lemma cum_mono d : (forall i, In i (points d) -> 0 <= d_w d i) -> forall j k, (j <= k < length (points d))%nat ->
  nth j (cum_chisq d) 0 <= nth k (cum_chisq d) 0.
Proof.
  intros W. apply cum_list_mono. intros i Ii. apply Rmult_le_pos; auto. apply sq_nonneg.
Qed.

Lemma cum_last d : back0 (cum_chisq d) = ds_chisq d.
Proof. apply cum_list_last. Qed.

Lemma crw_nth total cum k : nth k (getcrw total cum) 0 =
  if (k <? length cum)%nat then sqrt (nth k cum 0 * (if Rlt_dec 0 total then 1 / total else 1)) else 0.
Proof.
  unfold getcrw. destruct (Nat.ltb_spec k (length cum)).
  - rewrite (nth_indep _ 0 (sqrt (0 * (if Rlt_dec 0 total then 1 / total else 1)))) by (rewrite map_length; auto).
    rewrite (map_nth (fun x => sqrt (x * (if Rlt_dec 0 total then 1 / total else 1)))). auto.
  - rewrite nth_overflow; auto. rewrite map_length. auto.
Qed.

Lemma rec_pos total : 0 < (if Rlt_dec 0 total then 1 / total else 1).
Proof. destruct (Rlt_dec 0 total). apply Rdiv_lt_0_compat; lra. lra. Qed.

Lemma crw_mono total d : (forall i, In i (points d) -> 0 <= d_w d i) -> forall j k, (j <= k < length (points d))%nat ->
  nth j (getcrw total (cum_chisq d)) 0 <= nth k (getcrw total (cum_chisq d)) 0.
Proof.
  intros W j k H. rewrite !crw_nth, cum_length. destruct (Nat.ltb_spec j (length (points d))); [|lia].
  destruct (Nat.ltb_spec k (length (points d))); [|lia]. apply sqrt_le_1_alt.
  apply Rmult_le_compat_r. pose proof (rec_pos total). lra. apply cum_mono; auto.
Qed.

Lemma last_map {A B} (f : A -> B) l d : last (map f l) (f d) = f (last l d).
Proof. induction l as [|a [|b l] IH]; simpl in *; auto. Qed.

Lemma dsrw_val total d : getdsrw total (cum_chisq d) = sqrt (ds_chisq d * (if Rlt_dec 0 total then 1 / total else 1)).
Proof.
  unfold getdsrw, getcrw, back0. rewrite <- cum_last. unfold back0.
  set (f := fun x => sqrt (x * (if Rlt_dec 0 total then 1 / total else 1))).
  assert (F0 : f 0 = 0). { unfold f. rewrite Rmult_0_l. apply sqrt_0. }
  rewrite <- F0 at 1. rewrite last_map. reflexivity.
Qed.

Lemma wsqobs_val d : wsqobs d = lsum (fun i => d_w d i * (d_obs d i * d_obs d i)) (points d).
Proof.
  unfold wsqobs, loop. rewrite (fold_lsum (fun i => d_w d i * d_obs d i * d_obs d i)). rewrite Rplus_0_l.
  apply lsum_ext. intros; lra.
Qed.
Lemma total_wsqobs_val ds : total_wsqobs ds = lsum wsqobs ds.
Proof. unfold total_wsqobs. rewrite fold_lsum. lra. Qed.
