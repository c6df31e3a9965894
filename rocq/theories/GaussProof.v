From Coq Require Import List Arith Reals Bool Lia Lra.
From Verif Require Import Base RSum GaussModel GaussSpec.
Import ListNotations.
Local Open Scope R_scope.

Lemma S1_ext n f g : (forall i, (1 <= i <= n)%nat -> f i = g i) -> S1 n f = S1 n g.
Proof. intros H. apply rsum_ext. intros. apply H. lia. Qed.

Lemma S1_plus n f g : S1 n (fun i => f i + g i) = S1 n f + S1 n g.
Proof. apply rsum_plus. Qed.

Lemma S1_scal n c f : S1 n (fun i => c * f i) = c * S1 n f.
Proof. apply (rsum_scal n c (fun i => f (S i))). Qed.

Lemma S1_single n f k : (1 <= k <= n)%nat -> (forall i, (1 <= i <= n)%nat -> i <> k -> f i = 0) -> S1 n f = f k.
Proof.
  intros Hk H. unfold S1. rewrite (rsum_single n _ (pred k)); try lia.
  - f_equal. lia.
  - intros. apply H; lia.
Qed.

(** changing one term *)
Lemma S1_change n f g k : (1 <= k <= n)%nat -> (forall i, (1 <= i <= n)%nat -> i <> k -> f i = g i) ->
  S1 n f = S1 n g + (f k - g k).
Proof.
  intros Hk H. assert (E : S1 n (fun i => f i + -1 * g i) = f k + -1 * g k).
  { apply (S1_single n (fun i => f i + -1 * g i)); auto. intros. rewrite H; auto. lra. }
  rewrite S1_plus, S1_scal in E. lra.
Qed.

Lemma up_in n i : In i (up n) <-> (1 <= i <= n)%nat.
Proof. unfold up. rewrite in_seq. lia. Qed.

Lemma up_nodup n : NoDup (up n).
Proof. apply seq_NoDup. Qed.

(** * loops *)
Lemma loop_nil {S} (body : nat -> S -> S) s : loop [] body s = s.
Proof. reflexivity. Qed.
Lemma loop_cons {S} i l (body : nat -> S -> S) s : loop (i :: l) body s = loop l body (body i s).
Proof. reflexivity. Qed.
Lemma loop_app {S} l l' (body : nat -> S -> S) s : loop (l ++ l') body s = loop l' body (loop l body s).
Proof. apply fold_left_app. Qed.

(** a loop in which pass j rewrites column j from column j *)
Lemma col_loop (phi : nat -> nat -> (nat -> R) -> R) (step : nat -> fmat -> fmat) :
  (forall j a i' j', step j a i' j' = if (j' =? j)%nat then phi j i' (fun i => a i j) else a i' j') ->
  (forall j i' c c', (forall i, c i = c' i) -> phi j i' c = phi j i' c') ->
  forall l a i' j', NoDup l ->
  loop l step a i' j' = if in_dec Nat.eq_dec j' l then phi j' i' (fun i => a i j') else a i' j'.
Proof.
  intros H E. induction l as [|j l IH]; intros a i' j' ND; auto.
  inversion ND as [|? ? N1 N2]; subst. rewrite loop_cons, IH by auto.
  destruct (in_dec Nat.eq_dec j' l) as [I|I].
  - assert (j' <> j) by congruence. destruct (in_dec Nat.eq_dec j' (j :: l)) as [I'|I']; [|exfalso; apply I'; right; auto].
    apply E. intros i. rewrite H. destruct (Nat.eqb_spec j' j); congruence.
  - rewrite H. destruct (Nat.eqb_spec j' j) as [->|NE].
    + destruct (in_dec Nat.eq_dec j (j :: l)) as [I'|I']; auto. exfalso; apply I'; left; auto.
    + destruct (in_dec Nat.eq_dec j' (j :: l)) as [[I'|I']|I']; auto; congruence.
Qed.

(** a loop in which pass i rewrites row i from row i and rows not in the list *)
Lemma row_loop (psi : nat -> nat -> fmat -> R) (step : nat -> fmat -> fmat) (keep : nat -> Prop) :
  (forall i a i' j', step i a i' j' = if (i' =? i)%nat then psi i j' a else a i' j') ->
  (forall i j' a a', (forall i' j, i' = i \/ keep i' -> a i' j = a' i' j) -> psi i j' a = psi i j' a') ->
  (forall i j' a, keep i -> psi i j' a = a i j') ->
  forall l a i' j', NoDup l ->
  loop l step a i' j' = if in_dec Nat.eq_dec i' l then psi i' j' a else a i' j'.
Proof.
  intros H E K. induction l as [|i l IH]; intros a i' j' ND; auto.
  inversion ND as [|? ? N1 N2]; subst. rewrite loop_cons, IH; auto.
  destruct (in_dec Nat.eq_dec i' l) as [I|I].
  - assert (i' <> i) by congruence. destruct (in_dec Nat.eq_dec i' (i :: l)) as [I'|I']; [|exfalso; apply I'; right; auto].
    apply E. intros r j [->|Kr]; rewrite H.
    + destruct (Nat.eqb_spec i' i); congruence.
    + destruct (Nat.eqb_spec r i); auto. subst. apply K; auto.
  - rewrite H. destruct (Nat.eqb_spec i' i) as [->|NE].
    + destruct (in_dec Nat.eq_dec i (i :: l)) as [I'|I']; auto. exfalso; apply I'; left; auto.
    + destruct (in_dec Nat.eq_dec i' (i :: l)) as [[I'|I']|I']; auto; congruence.
Qed.

Definition inr (n i : nat) : bool := ((1 <=? i) && (i <=? n))%nat.
Lemma inr_spec n i : inr n i = true <-> (1 <= i <= n)%nat.
Proof. unfold inr. rewrite andb_true_iff, !Nat.leb_le. tauto. Qed.
Lemma in_up_if {A} n i (x y : A) : (if in_dec Nat.eq_dec i (up n) then x else y) = if inr n i then x else y.
Proof.
  destruct (in_dec Nat.eq_dec i (up n)) as [I|I]; rewrite up_in in I.
  - apply inr_spec in I. rewrite I. auto.
  - destruct (inr n i) eqn:E; auto. apply inr_spec in E. tauto.
Qed.

Ltac nat_eqs := repeat match goal with
  | |- context [(?x =? ?y)%nat] => destruct (Nat.eqb_spec x y); subst; simpl; try congruence; try lia
  end; auto.

Definition sw (p q x : nat) : nat := if (x =? p)%nat then q else if (x =? q)%nat then p else x.

Lemma sw_sw p q x : sw p q (sw p q x) = x.
Proof. unfold sw. destruct (Nat.eqb_spec x p); [|destruct (Nat.eqb_spec x q)]; nat_eqs. Qed.
Lemma sw_in n p q x : (1 <= p <= n)%nat -> (1 <= q <= n)%nat -> (1 <= x <= n)%nat -> (1 <= sw p q x <= n)%nat.
Proof. unfold sw. nat_eqs. Qed.

Lemma mswap_val a i j i2 j2 i' j' : mswap a i j i2 j2 i' j' =
  if ((i' =? i2) && (j' =? j2))%nat%bool then a i j else
  if ((i' =? i) && (j' =? j))%nat%bool then a i2 j2 else a i' j'.
Proof. reflexivity. Qed.

Lemma swap_rows_val cnt a p q i j : swap_rows cnt a p q i j = if inr cnt j then a (sw p q i) j else a i j.
Proof.
  unfold swap_rows.
  rewrite (col_loop (fun j i' c => c (sw p q i')) (fun l a => mswap a p l q l)); auto.
  - apply in_up_if.
  - intros j0 a0 i' j'. rewrite mswap_val. unfold sw. nat_eqs.
  - apply up_nodup.
Qed.

Lemma scale_row_val cnt a p v i j : scale_row cnt a p v i j =
  if (inr cnt j && (i =? p)%nat)%bool then a i j * v else a i j.
Proof.
  unfold scale_row.
  rewrite (col_loop (fun j i' c => if (i' =? p)%nat then c i' * v else c i') (fun l a => mset a p l (a p l * v))); auto.
  - rewrite in_up_if. destruct (inr cnt j); simpl; auto.
  - intros j0 a0 i' j'. unfold mset. nat_eqs.
  - intros j0 i' c c' E. rewrite !E. auto.
  - apply up_nodup.
Qed.

Lemma reduce_row_val cnt a ll p d i j : ll <> p -> reduce_row cnt a ll p d i j =
  if (inr cnt j && (i =? ll)%nat)%bool then a i j - a p j * d else a i j.
Proof.
  intros NE. unfold reduce_row.
  rewrite (col_loop (fun j i' c => if (i' =? ll)%nat then c i' - c p * d else c i') (fun l a => mset a ll l (a ll l - a p l * d))); auto.
  - rewrite in_up_if. destruct (inr cnt j); simpl; auto.
  - intros j0 a0 i' j'. unfold mset. nat_eqs.
  - intros j0 i' c c' E. rewrite !E. auto.
  - apply up_nodup.
Qed.

(** reduction of all rows; the two matrices separately *)
Lemma reduce_fst n m a b p i j : (1 <= p <= n)%nat -> fst (reduce n m (a, b) p) i j =
  if (inr n i && negb (i =? p)%nat)%bool then
    if inr n j then (if (j =? p)%nat then 0 else a i j) - a p j * a i p else a i j
  else a i j.
Proof.
  intros Hp. unfold reduce.
  set (stepa := fun ll a => if (ll =? p)%nat then a else reduce_row n (mset a ll p 0) ll p (a ll p)).
  assert (G : forall l a b, fst (loop l (fun ll ab => if (ll =? p)%nat then ab else
      let (a, b) := ab : fmat * fmat in
      (reduce_row n (mset a ll p 0) ll p (a ll p), reduce_row m b ll p (a ll p))) (a, b)) = loop l stepa a).
  { induction l as [|x l IH]; intros a0 b0; auto. rewrite !loop_cons. unfold stepa at 2.
    destruct (x =? p)%nat; apply IH. }
  rewrite G. clear G.
  rewrite (row_loop (fun ll j' a => if (ll =? p)%nat then a ll j' else
      if inr n j' then (if (j' =? p)%nat then 0 else a ll j') - a p j' * a ll p else
        a ll j') stepa (fun i => i = p)).
  - rewrite in_up_if. destruct (inr n i); simpl; auto. destruct (Nat.eqb_spec i p); simpl; auto.
  - intros ll a0 i' j'. unfold stepa. destruct (Nat.eqb_spec ll p).
    + nat_eqs.
    + rewrite reduce_row_val by auto. unfold mset. rewrite (Nat.eqb_sym i' ll).
      destruct (Nat.eqb_spec ll i'); subst; simpl; rewrite ?andb_false_r, ?andb_true_r; auto.
      destruct (inr n j') eqn:Ej; auto.
      * destruct (Nat.eqb_spec p i'); [congruence|]. simpl. auto.
      * destruct (Nat.eqb_spec j' p); auto. subst. exfalso. apply inr_spec in Hp. congruence.
  - intros ll j' a0 a1 E. rewrite !E by auto. auto.
  - intros i0 j' a0 ->. rewrite Nat.eqb_refl. auto.
  - apply up_nodup.
Qed.

Lemma reduce_snd n m a b p i j : (1 <= p <= n)%nat -> snd (reduce n m (a, b) p) i j =
  if (inr n i && negb (i =? p)%nat)%bool then
    if inr m j then b i j - b p j * a i p else b i j
  else b i j.
Proof.
  intros Hp. unfold reduce.
  set (body := fun ll (ab : fmat * fmat) => if (ll =? p)%nat then ab else
      let (a, b) := ab in
      (reduce_row n (mset a ll p 0) ll p (a ll p), reduce_row m b ll p (a ll p))).
  set (stepb := fun (c : nat -> R) ll b => if (ll =? p)%nat then b else reduce_row m b ll p (c ll)).
  assert (G : forall l a b c, NoDup l -> (forall i, In i l -> a i p = c i) ->
     snd (loop l body (a, b)) = loop l (stepb c) b).
  { induction l as [|x l IH]; intros a0 b0 c ND H; auto. inversion ND as [|? ? N1 N2]; subst.
    rewrite !loop_cons. unfold body at 2, stepb at 2.
    destruct (Nat.eqb_spec x p).
    - apply IH; auto. intros; apply H; right; auto.
    - rewrite (H x) by (left; auto). apply IH; auto. intros i0 I. rewrite reduce_row_val by auto. unfold mset.
      assert (i0 <> x) by congruence. destruct (Nat.eqb_spec i0 x); [congruence|]. simpl. rewrite andb_false_r.
      apply H. right; auto. }
  rewrite (G _ a b (fun i => a i p)); auto; [|apply up_nodup]. clear G.
  rewrite (row_loop (fun ll j' b => if (ll =? p)%nat then b ll j' else
      if inr m j' then b ll j' - b p j' * a ll p else b ll j') (stepb (fun i => a i p)) (fun i => i = p)).
  - rewrite in_up_if. destruct (inr n i); simpl; auto. destruct (Nat.eqb_spec i p); simpl; auto.
  - intros ll b0 i' j'. unfold stepb. destruct (Nat.eqb_spec ll p).
    + nat_eqs.
    + rewrite reduce_row_val by auto. destruct (Nat.eqb_spec i' ll); subst; rewrite ?andb_false_r, ?andb_true_r; auto.
  - intros ll j' a0 a1 E. rewrite !E by auto. auto.
  - intros i0 j' a0 ->. rewrite Nat.eqb_refl. auto.
  - apply up_nodup.
Qed.

(** * pivot search *)
Definition cand (n : nat) (ipiv : nat -> nat) (j k : nat) : Prop :=
  (1 <= j <= n)%nat /\ (1 <= k <= n)%nat /\ ipiv j <> 1%nat /\ ipiv k = O.

Definition best (a : fmat) (seen : nat -> nat -> Prop) (s : R * nat * nat) : Prop :=
  let '(big, ir, ic) := s in
  0 <= big /\ (forall j k, seen j k -> Rabs (a j k) <= big) /\
  ((exists j k, seen j k) -> seen ir ic /\ big = Rabs (a ir ic)) /\
  ((forall j k, ~ seen j k) -> big = 0).

Lemma search_spec n a ipiv ir0 ic0 : (exists j k, cand n ipiv j k) ->
  let '(big, ir, ic) := search n a ipiv ir0 ic0 in
  cand n ipiv ir ic /\ forall j k, cand n ipiv j k -> Rabs (a j k) <= Rabs (a ir ic).
Proof.
  intros EX. unfold search.
  set (inner := fun j k (s : R * nat * nat) => if (ipiv k =? 0)%nat then
        let '(big, _, _) := s in if Rle_dec big (Rabs (a j k)) then (Rabs (a j k), j, k) else s else s).
  (* invariant with the set of pairs seen so far *)
  assert (IN : forall j, (1 <= j <= n)%nat -> ipiv j <> 1%nat -> forall l (seen : nat -> nat -> Prop) s,
    (forall k, In k l -> (1 <= k <= n)%nat) ->
    best a seen s ->
    best a (fun j' k' => seen j' k' \/ (j' = j /\ In k' l /\ ipiv k' = O)) (loop l (inner j) s)).
  { intros j Hj Pj. induction l as [|k l IH]; intros seen s Hl B.
    - rewrite loop_nil. destruct s as [[big ir] ic]. destruct B as (B1 & B2 & B3 & B4). split; auto. split.
      + intros j' k' [H|(_ & [] & _)]; auto.
      + split. * intros (j' & k' & [H|(_ & [] & _)]). destruct B3 as [X Y]; eauto.
        * intros H. apply B4. intros j' k' S. apply (H j' k'). auto.
    - rewrite loop_cons.
      assert (B' : best a (fun j' k' => seen j' k' \/ (j' = j /\ k' = k /\ ipiv k' = O)) (inner j k s)).
      { destruct s as [[big ir] ic]. destruct B as (B1 & B2 & B3 & B4). unfold inner.
        destruct (Nat.eqb_spec (ipiv k) 0) as [Z|NZ].
        - destruct (Rle_dec big (Rabs (a j k))) as [L|L].
          + split; [apply Rabs_pos|]. split.
            * intros j' k' [H|(-> & -> & _)]; [|lra]. specialize (B2 j' k' H). lra.
            * split; [auto|]. intros H. exfalso. apply (H j k). auto.
          + split; auto. split.
            * intros j' k' [H|(-> & -> & _)]; [auto|]. lra.
            * split.
              -- intros _. destruct (Req_dec big 0) as [E0|E0].
                 { exfalso. apply L. rewrite E0. apply Rabs_pos. }
                 assert (exists j' k', seen j' k') as EXs.
                 { apply Classical_Pred_Type.not_all_not_ex. intros H. apply E0. apply B4. intros j' k' S. apply (H j').
                   exists k'. auto. }
                 destruct (B3 EXs). auto.
              -- intros H. exfalso. apply (H j k). auto.
        - split; auto. split. { intros j' k' [H|(_ & -> & Q)]; [auto|congruence]. }
          split. { intros (j' & k' & [H|(_ & -> & Q)]); [|congruence]. destruct B3; eauto. }
          intros H. apply B4. intros j' k' S. apply (H j' k'). auto. }
      specialize (IH _ _ (fun k' I => Hl k' (or_intror I)) B').
      destruct (loop l (inner j) (inner j k s)) as [[big ir] ic]. destruct IH as (B1 & B2 & B3 & B4).
      split; auto. split.
      + intros j' k' [H|(-> & [->|I] & Q)]; apply B2; auto.
      + split.
        * intros (j' & k' & H). destruct B3 as [X Y].
          { exists j', k'. destruct H as [H|(-> & [->|I] & Q)]; auto. }
          split; auto. destruct X as [[X|(-> & -> & Q)]|(-> & I & Q)]; auto. right; split; auto. split; auto. left; auto.
          right; split; auto. split; auto. right; auto.
        * intros H. apply B4. intros j' k' [[S|(-> & -> & Q)]|(-> & I & Q)]; eapply H; eauto.
          right. split; eauto. split; eauto. left; auto. right. split; eauto. split; eauto. right; auto. }
  assert (OUT : forall l (seen : nat -> nat -> Prop) s, (forall j, In j l -> (1 <= j <= n)%nat) ->
    best a seen s ->
    best a (fun j' k' => seen j' k' \/ (In j' l /\ ipiv j' <> 1%nat /\ (1 <= k' <= n)%nat /\ ipiv k' = O))
      (loop l (fun j s => if (ipiv j =? 1)%nat then s else loop (up n) (inner j) s) s)).
  { induction l as [|j l IH]; intros seen s Hl B.
    - rewrite loop_nil. destruct s as [[big ir] ic]. destruct B as (B1 & B2 & B3 & B4). split; auto. split.
      { intros j' k' [H|([] & _)]; auto. } split.
      { intros (j' & k' & [H|([] & _)]). destruct B3; eauto. }
      intros H. apply B4. intros j' k' S. apply (H j' k'). auto.
    - rewrite loop_cons.
      assert (B' : best a (fun j' k' => seen j' k' \/ (j' = j /\ ipiv j' <> 1%nat /\ (1 <= k' <= n)%nat /\ ipiv k' = O))
         (if (ipiv j =? 1)%nat then s else loop (up n) (inner j) s)).
      { destruct (Nat.eqb_spec (ipiv j) 1) as [E|E].
        - destruct s as [[big ir] ic]. destruct B as (B1 & B2 & B3 & B4). split; auto. split.
          { intros j' k' [H|(-> & Q & _)]; [auto|congruence]. } split.
          { intros (j' & k' & [H|(-> & Q & _)]); [|congruence]. destruct B3; eauto. }
          intros H. apply B4. intros j' k' S. apply (H j' k'). auto.
        - pose proof (IN j (Hl j (or_introl eq_refl)) E (up n) seen s (fun k I => proj1 (up_in n k) I) B) as B'.
          destruct (loop (up n) (inner j) s) as [[big ir] ic]. destruct B' as (B1 & B2 & B3 & B4). split; auto. split.
          { intros j' k' [H|(-> & Q & K & Z)]; apply B2; auto. right. rewrite up_in. auto. } split.
          { intros (j' & k' & H). destruct B3 as [X Y].
            { exists j', k'. destruct H as [H|(-> & Q & K & Z)]; auto. right. rewrite up_in. auto. }
            split; auto. destruct X as [X|(-> & K & Z)]; auto. rewrite up_in in K. right. auto. }
          intros H. apply B4. intros j' k' [S|(-> & K & Z)]; eapply H; eauto. rewrite up_in in K. right; eauto. }
      specialize (IH _ _ (fun k' I => Hl k' (or_intror I)) B').
      destruct (loop l _ _) as [[big ir] ic]. destruct IH as (B1 & B2 & B3 & B4). split; auto. split.
      { intros j' k' [H|([->|I] & Q)]; apply B2; auto. } split.
      { intros (j' & k' & H). destruct B3 as [X Y].
        { exists j', k'. destruct H as [H|([->|I] & Q)]; auto. }
        split; auto. destruct X as [[X|(-> & X)]|(I & X)]; auto. right; split; [left|]; auto. right; split; [right|]; auto. }
      intros H. apply B4. intros j' k' [[S|(-> & Q)]|(I & Q)]; eapply H; eauto.
      right; split; [left|]; eauto. right; split; [right|]; eauto. }
  assert (B0 : best a (fun _ _ => False) (0, ir0, ic0)).
  { split; [lra|]. split; [tauto|]. split; auto. intros (j & k & []). }
  pose proof (OUT (up n) _ _ (fun j I => proj1 (up_in n j) I) B0) as B.
  fold inner.
  destruct (loop (up n) _ (0, ir0, ic0)) as [[big ir] ic].
  destruct B as (B1 & B2 & B3 & B4).
  destruct B3 as [X Y].
  { destruct EX as (j & k & (J & K & P & Z)). exists j, k. right. rewrite up_in. auto. }
  destruct X as [[]|(I & P & K & Z)]. rewrite up_in in I. split. repeat split; auto; lia.
  intros j k (J & K' & P' & Z'). rewrite <- Y. apply B2. right. rewrite up_in. auto.
Qed.

(** * linear forms of the system *)
Definition form (n : nat) (a : fmat) (S : nat -> bool) (x z d : nat -> R) (r : nat) : R :=
  S1 n (fun c => if S c then - a r c * z c else a r c * x c) + (if S r then x r else - z r) - d r.

Lemma form_swap n a S x z d p q r : S p = false -> S q = false ->
  form n (fun i j => a (sw p q i) j) S x (fun i => z (sw p q i)) (fun i => d (sw p q i)) r = form n a S x z d (sw p q r).
Proof.
  intros Hp Hq. unfold form. f_equal. f_equal.
  - apply S1_ext. intros c _. destruct (S c) eqn:E; auto. f_equal. f_equal. unfold sw. nat_eqs.
  - assert (S (sw p q r) = S r) as ->. { unfold sw. nat_eqs. }
    destruct (S r) eqn:E; auto. unfold sw. nat_eqs.
Qed.

Lemma form_ext n a a' S S' x z z' d d' r : (1 <= r <= n)%nat ->
  (forall c, (1 <= c <= n)%nat -> a r c = a' r c) -> (forall c, (1 <= c <= n)%nat -> S c = S' c) ->
  (forall c, (1 <= c <= n)%nat -> z c = z' c) -> d r = d' r ->
  form n a S x z d r = form n a' S' x z' d' r.
Proof.
  intros Hr H1 H2 H3 H4. unfold form. rewrite H4, (H2 r Hr), (H3 r Hr). f_equal. f_equal. apply S1_ext.
  intros c Hc. rewrite H1, H2, H3; auto.
Qed.

Definition piv_mat (a : fmat) (p : nat) : fmat := fun r c =>
  if (r =? p)%nat then (if (c =? p)%nat then 1 else a p c) * (1 / a p p)
  else (if (c =? p)%nat then 0 else a r c) - (if (c =? p)%nat then 1 else a p c) * (1 / a p p) * a r p.
Definition piv_vec (a : fmat) (p : nat) (d : nat -> R) : nat -> R := fun r =>
  if (r =? p)%nat then d p * (1 / a p p) else d r - d p * (1 / a p p) * a r p.

Definition addp (S : nat -> bool) (p c : nat) : bool := if (c =? p)%nat then true else S c.

Lemma form_pivot n a S x z d p : (1 <= p <= n)%nat -> S p = false -> a p p <> 0 ->
  form n (piv_mat a p) (addp S p) x z (piv_vec a p d) p = / a p p * form n a S x z d p.
Proof.
  intros Hp Sp NZ. unfold form, piv_vec. rewrite Nat.eqb_refl. unfold addp at 2. rewrite Nat.eqb_refl, Sp.
  set (f := fun c => if S c then - a p c * z c else a p c * x c).
  rewrite (S1_change n _ (fun c => / a p p * f c) p Hp).
  - rewrite S1_scal. unfold f at 2. rewrite Sp. unfold addp, piv_mat. rewrite !Nat.eqb_refl. field. auto.
  - intros c Hc NE. unfold addp, piv_mat, f. rewrite Nat.eqb_refl. destruct (Nat.eqb_spec c p); [congruence|].
    destruct (S c); field; auto.
Qed.

Lemma form_other n a S x z d p r : (1 <= p <= n)%nat -> (1 <= r <= n)%nat -> r <> p -> S p = false -> a p p <> 0 ->
  form n (piv_mat a p) (addp S p) x z (piv_vec a p d) r =
  form n a S x z d r - a r p * (/ a p p * form n a S x z d p).
Proof.
  intros Hp Hr NE Sp NZ. unfold form, piv_vec.
  assert (addp S p r = S r) as ->. { unfold addp. destruct (Nat.eqb_spec r p); congruence. }
  destruct (Nat.eqb_spec r p); [congruence|]. rewrite Sp.
  set (f := fun c => if S c then - a p c * z c else a p c * x c).
  set (g := fun c => if S c then - a r c * z c else a r c * x c).
  rewrite (S1_change n _ (fun c => g c + - (a r p * / a p p) * f c) p Hp).
  - rewrite S1_plus, S1_scal. unfold f at 2, g at 2. rewrite Sp. unfold addp, piv_mat. rewrite !Nat.eqb_refl.
    destruct (Nat.eqb_spec r p); [congruence|]. field. auto.
  - intros c Hc NEc. unfold addp, piv_mat, f, g. destruct (Nat.eqb_spec r p); [congruence|].
    destruct (Nat.eqb_spec c p); [congruence|]. destruct (S c); field; auto.
Qed.

Lemma forms_pivot n a S x z d p : (1 <= p <= n)%nat -> S p = false -> a p p <> 0 ->
  (forall r, (1 <= r <= n)%nat -> form n a S x z d r = 0) <->
  (forall r, (1 <= r <= n)%nat -> form n (piv_mat a p) (addp S p) x z (piv_vec a p d) r = 0).
Proof.
  intros Hp Sp NZ. split; intros H.
  - intros r Hr. destruct (Nat.eq_dec r p).
    + subst. rewrite form_pivot by auto. rewrite H by auto. lra.
    + rewrite form_other by auto. rewrite !H by auto. lra.
  - assert (Z : form n a S x z d p = 0).
    { pose proof (H p Hp) as Q. rewrite form_pivot in Q by auto. apply Rmult_integral in Q as [Q|Q]; auto.
      exfalso. apply (Rinv_neq_0_compat _ NZ); auto. }
    intros r Hr. destruct (Nat.eq_dec r p). subst; auto.
    pose proof (H r Hr) as Q. rewrite form_other in Q by auto. rewrite Z in Q. lra.
Qed.

Lemma forms_swap n a S x z d p q : (1 <= p <= n)%nat -> (1 <= q <= n)%nat -> S p = false -> S q = false ->
  (forall r, (1 <= r <= n)%nat -> form n a S x z d r = 0) <->
  (forall r, (1 <= r <= n)%nat ->
     form n (fun i j => a (sw p q i) j) S x (fun i => z (sw p q i)) (fun i => d (sw p q i)) r = 0).
Proof.
  intros Hp Hq Sp Sq. split; intros H r Hr.
  - rewrite form_swap by auto. apply H. apply sw_in; auto.
  - rewrite <- (sw_sw p q r). rewrite <- form_swap by auto. apply H. apply sw_in; auto.
Qed.

(** * one pass in closed form *)
Definition pivoted (s : gstate) (c : nat) : bool := (gpiv s c =? 1)%nat.

Lemma gstep_case n m s i :
  (exists c, (1 <= c <= n)%nat /\ gpiv s c = O) ->
  (forall c, (1 <= c <= n)%nat -> gpiv s c = O \/ gpiv s c = 1%nat) ->
  exists ir ic, (1 <= ir <= n)%nat /\ (1 <= ic <= n)%nat /\ gpiv s ir = O /\ gpiv s ic = O /\
  ((ga s ir ic = 0 /\ gstep n m s i = Err ErrCalculation /\
     forall r c, (1 <= r <= n)%nat -> (1 <= c <= n)%nat -> gpiv s r = O -> gpiv s c = O -> ga s r c = 0) \/
   (ga s ir ic <> 0 /\ exists a' b',
     gstep n m s i = Ok (mkG a' b' (vset (gpiv s) ic 1) ir ic (vset (gindxr s) i ir) (vset (gindxc s) i ic)) /\
     (forall r c, (1 <= r <= n)%nat -> (1 <= c <= n)%nat -> a' r c = piv_mat (fun i j => ga s (sw ir ic i) j) ic r c) /\
     (forall r k, (1 <= r <= n)%nat -> (1 <= k <= m)%nat ->
        b' r k = piv_vec (fun i j => ga s (sw ir ic i) j) ic (fun i => gb s (sw ir ic i) k) r) /\
     (forall r c, ~ ((1 <= r <= n)%nat /\ (1 <= c <= n)%nat) -> a' r c = ga s r c) /\
     (forall r k, ~ ((1 <= r <= n)%nat /\ (1 <= k <= m)%nat) -> b' r k = gb s r k))).
Proof.
  intros (c0 & Hc0 & Z0) P01.
  assert (EX : exists j k, cand n (gpiv s) j k).
  { exists c0, c0. repeat split; try lia. }
  unfold gstep. pose proof (search_spec n (ga s) (gpiv s) (girow s) (gicol s) EX) as SP.
  destruct (search n (ga s) (gpiv s) (girow s) (gicol s)) as [[big ir] ic].
  destruct SP as ((Hr & Hc & Pr & Pc) & MAX).
  assert (Pr0 : gpiv s ir = O). { destruct (P01 ir Hr); auto. congruence. }
  exists ir, ic. split; auto. split; auto. split; auto. split; auto.
  set (a1 := if (ir =? ic)%nat then ga s else swap_rows n (ga s) ir ic).
  set (b1 := if (ir =? ic)%nat then gb s else swap_rows m (gb s) ir ic).
  assert (A1 : forall r c, a1 r c = if inr n c then ga s (sw ir ic r) c else ga s r c).
  { intros r c. unfold a1. destruct (Nat.eqb_spec ir ic).
    - assert (sw ir ic r = r) as ->. { unfold sw. nat_eqs. } destruct (inr n c); auto.
    - apply swap_rows_val. }
  assert (B1 : forall r c, b1 r c = if inr m c then gb s (sw ir ic r) c else gb s r c).
  { intros r c. unfold b1. destruct (Nat.eqb_spec ir ic).
    - assert (sw ir ic r = r) as ->. { unfold sw. nat_eqs. } destruct (inr m c); auto.
    - apply swap_rows_val. }
  assert (AP : a1 ic ic = ga s ir ic).
  { rewrite A1. rewrite (proj2 (inr_spec n ic)) by auto. unfold sw. nat_eqs. }
  destruct (Nat.eqb_spec ic 0); [lia|].
  destruct (Req_EM_T (a1 ic ic) 0) as [E|E].
  - left. rewrite AP in E. split; auto. split; auto.
    intros r c R1 C1 Zr Zc. assert (Rabs (ga s r c) <= Rabs (ga s ir ic)).
    { apply MAX. repeat split; try lia. }
    rewrite E, Rabs_R0 in H. pose proof (Rabs_pos (ga s r c)).
    destruct (Req_dec (ga s r c) 0); auto. apply Rabs_pos_lt in H1. lra.
  - right. rewrite AP in E. split; auto.
    set (a2 := scale_row n (mset a1 ic ic 1) ic (1 / a1 ic ic)). set (b2 := scale_row m b1 ic (1 / a1 ic ic)).
    pose proof (reduce_fst n m a2 b2 ic) as RF. pose proof (reduce_snd n m a2 b2 ic) as RS.
    destruct (reduce n m (a2, b2) ic) as [a3 b3]. simpl in RF, RS.
    rewrite Pc. exists a3, b3. split; auto.
    assert (A2 : forall r c, (1 <= c <= n)%nat -> a2 r c =
       if (r =? ic)%nat then (if (c =? ic)%nat then 1 else ga s ir c) * (1 / ga s ir ic) else ga s (sw ir ic r) c).
    { intros r c C1. unfold a2. rewrite scale_row_val. rewrite (proj2 (inr_spec n c)) by auto. rewrite AP. unfold mset.
      rewrite A1. rewrite (proj2 (inr_spec n c)) by auto. simpl.
      destruct (Nat.eqb_spec r ic); simpl; auto. subst. destruct (Nat.eqb_spec c ic); auto.
      f_equal. f_equal. unfold sw. nat_eqs. }
    assert (SWic : sw ir ic ic = ir) by (unfold sw; nat_eqs).
    assert (BB : forall r c, (1 <= c <= m)%nat -> b2 r c =
       if (r =? ic)%nat then gb s ir c * (1 / ga s ir ic) else gb s (sw ir ic r) c).
    { intros r c C1. unfold b2. rewrite scale_row_val. rewrite (proj2 (inr_spec m c)) by auto. rewrite AP.
      rewrite B1. rewrite (proj2 (inr_spec m c)) by auto. simpl.
      destruct (Nat.eqb_spec r ic); simpl; auto. subst. rewrite SWic. auto. }
    split; [|split; [|split]].
    + intros r c R1 C1. rewrite RF by auto. rewrite (proj2 (inr_spec n r)), (proj2 (inr_spec n c)) by auto.
      rewrite !A2 by auto. unfold piv_mat. rewrite SWic, Nat.eqb_refl. simpl.
      destruct (Nat.eqb_spec r ic); simpl; auto.
    + intros r k R1 K1. rewrite RS by auto. rewrite (proj2 (inr_spec n r)), (proj2 (inr_spec m k)) by auto.
      rewrite !BB by auto. rewrite A2 by auto. unfold piv_vec. rewrite SWic, Nat.eqb_refl. simpl.
      destruct (Nat.eqb_spec r ic); simpl; auto.
    + intros r c NR. rewrite RF by auto.
      assert (Q : (inr n r = false \/ inr n c = false)).
      { destruct (inr n r) eqn:E1; auto. destruct (inr n c) eqn:E2; auto. rewrite inr_spec in E1, E2. tauto. }
      assert (A2' : a2 r c = ga s r c).
      { unfold a2. rewrite scale_row_val. unfold mset. rewrite A1. destruct Q as [Q|Q].
        - assert (r <> ic). { intros ->. apply inr_spec in Hc. congruence. }
          destruct (Nat.eqb_spec r ic); [congruence|]. simpl. rewrite andb_false_r.
          assert (sw ir ic r = r) as ->. { unfold sw. nat_eqs. apply inr_spec in Hr. congruence. }
          destruct (inr n c); auto.
        - rewrite Q. simpl. assert (c <> ic). { intros ->. apply inr_spec in Hc. congruence. }
          destruct (Nat.eqb_spec c ic); [congruence|]. rewrite andb_false_r. auto. }
      destruct Q as [Q|Q]; rewrite Q; simpl; auto. destruct (inr n r && negb (r =? ic)%nat)%bool; auto.
    + intros r c NR. rewrite RS by auto.
      assert (Q : (inr n r = false \/ inr m c = false)).
      { destruct (inr n r) eqn:E1; auto. destruct (inr m c) eqn:E2; auto. rewrite inr_spec in E1, E2. tauto. }
      assert (B2' : b2 r c = gb s r c).
      { unfold b2. rewrite scale_row_val. rewrite B1. destruct Q as [Q|Q].
        - assert (r <> ic). { intros ->. apply inr_spec in Hc. congruence. }
          destruct (Nat.eqb_spec r ic); [congruence|]. rewrite andb_false_r.
          assert (sw ir ic r = r) as ->. { unfold sw. nat_eqs. apply inr_spec in Hr. congruence. }
          destruct (inr m c); auto.
        - rewrite Q. simpl. auto. }
      destruct Q as [Q|Q]; rewrite Q; simpl; auto. destruct (inr n r && negb (r =? ic)%nat)%bool; auto.
Qed.

(** * invariant of the main loop *)
Fixpoint qof (indxr indxc : nat -> nat) (i : nat) (r : nat) : nat :=
  match i with O => r | S l => qof indxr indxc l (sw (indxr (S l)) (indxc (S l)) r) end.

Lemma qof_ext f g f' g' i : (forall l, (1 <= l <= i)%nat -> f l = f' l /\ g l = g' l) -> forall r, qof f g i r = qof f' g' i r.
Proof.
  induction i; intros H r; simpl; auto. destruct (H (S i)) as [-> ->]; [lia|]. apply IHi. intros; apply H; lia.
Qed.

Definition ginv (n m : nat) (A B : fmat) (i : nat) (s : gstate) : Prop :=
  (exists P, NoDup P /\ length P = i /\ (forall c, In c P -> (1 <= c <= n)%nat) /\
     forall c, (1 <= c <= n)%nat -> (In c P /\ gpiv s c = 1%nat) \/ (~ In c P /\ gpiv s c = O)) /\
  (forall l, (1 <= l <= i)%nat -> (1 <= gindxr s l <= n)%nat /\ (1 <= gindxc s l <= n)%nat) /\
  (forall x y, solves n A x y <->
     forall r, (1 <= r <= n)%nat ->
       form n (ga s) (pivoted s) x (fun c => y (qof (gindxr s) (gindxc s) i c)) (fun _ => 0) r = 0) /\
  (forall x k, (1 <= k <= m)%nat -> (solves n A x (fun r => B r k) <->
     forall r, (1 <= r <= n)%nat -> form n (ga s) (pivoted s) x (fun _ => 0) (fun r => gb s r k) r = 0)) /\
  (forall r c, ~ ((1 <= r <= n)%nat /\ (1 <= c <= n)%nat) -> ga s r c = A r c) /\
  (forall r k, ~ ((1 <= r <= n)%nat /\ (1 <= k <= m)%nat) -> gb s r k = B r k).

Lemma ginv_init n m A B : ginv n m A B 0 (mkG A B (fun _ => O) 0 0 (fun _ => O) (fun _ => O)).
Proof.
  split; [|split; [|split; [|split; [|split]]]]; auto.
  - exists []. split; [constructor|]. split; [auto|]. split; [intros c []|]. intros c Hc. right. auto.
  - intros; lia.
  - intros x y. unfold solves, form, pivoted. simpl. split; intros H r Hr; specialize (H r Hr); lra.
  - intros x k Hk. unfold solves, form, pivoted. simpl. split; intros H r Hr; specialize (H r Hr); lra.
Qed.

Lemma unpivoted_exists n P : NoDup P -> (forall c, In c P -> (1 <= c <= n)%nat) -> (length P < n)%nat ->
  exists c, (1 <= c <= n)%nat /\ ~ In c P.
Proof.
  intros ND IN L. destruct (Forall_Exists_dec (fun c => In c P) (fun c => in_dec Nat.eq_dec c P) (up n)) as [F|E].
  - exfalso. rewrite Forall_forall in F. assert (length (up n) <= length P)%nat.
    { apply NoDup_incl_length. apply up_nodup. intros c I. auto. }
    unfold up in H. rewrite seq_length in H. lia.
  - apply Exists_exists in E as (c & I & N). exists c. rewrite up_in in I. auto.
Qed.

Lemma ginv_step n m A B i s : (i < n)%nat -> ginv n m A B i s ->
  (gstep n m s (S i) = Err ErrCalculation /\ singular n A) \/
  (exists s', gstep n m s (S i) = Ok s' /\ ginv n m A B (S i) s').
Proof.
  intros L ((P & ND & LP & PI & PP) & I2 & I3 & I4 & I5 & I6).
  destruct (unpivoted_exists n P ND PI) as (c0 & Hc0 & NI); [lia|].
  assert (P01 : forall c, (1 <= c <= n)%nat -> gpiv s c = O \/ gpiv s c = 1%nat).
  { intros c Hc. destruct (PP c Hc) as [[_ Q]|[_ Q]]; auto. }
  destruct (gstep_case n m s (S i)) as (ir & ic & Hr & Hc & Zr & Zc & [(Z & G & ALL)|(NZ & a' & b' & G & GA & GB & FA & FB)]); auto.
  { exists c0. split; auto. destruct (PP c0 Hc0) as [[Q _]|[_ Q]]; auto. tauto. }
  - left. split; auto.
    exists (fun r => if (r =? ic)%nat then 1 else if pivoted s r then - ga s r ic else 0). split.
    { exists ic. split; auto. rewrite Nat.eqb_refl. lra. }
    apply I3. intros r R1. unfold form.
    assert (NP : pivoted s ic = false) by (unfold pivoted; rewrite Zc; auto).
    rewrite (S1_single n _ ic Hc).
    + rewrite NP, Nat.eqb_refl. destruct (pivoted s r) eqn:E.
      * destruct (Nat.eqb_spec r ic); [congruence|]. lra.
      * rewrite ALL; auto. lra. unfold pivoted in E. destruct (P01 r R1) as [Q|Q]; auto. rewrite Q in E. discriminate.
    + intros c C1 NE. destruct (pivoted s c) eqn:E. lra. destruct (Nat.eqb_spec c ic); [congruence|]. lra.
  - right. eexists; split; [exact G|].
    assert (Sr : pivoted s ir = false) by (unfold pivoted; rewrite Zr; auto).
    assert (Sc : pivoted s ic = false) by (unfold pivoted; rewrite Zc; auto).
    set (s' := mkG a' b' (vset (gpiv s) ic 1) ir ic (vset (gindxr s) (S i) ir) (vset (gindxc s) (S i) ic)).
    set (asw := fun i0 j => ga s (sw ir ic i0) j).
    assert (AP : asw ic ic <> 0). { unfold asw, sw. nat_eqs. }
    assert (PV : forall c, pivoted s' c = addp (pivoted s) ic c).
    { intros c. unfold pivoted, addp, s', vset. simpl. destruct (c =? ic)%nat; auto. }
    assert (EQ : forall x z d d', (forall r, (1 <= r <= n)%nat -> d' r = piv_vec asw ic (fun i0 => d (sw ir ic i0)) r) ->
      ((forall r, (1 <= r <= n)%nat -> form n (ga s) (pivoted s) x z d r = 0) <->
       (forall r, (1 <= r <= n)%nat -> form n a' (pivoted s') x (fun i0 => z (sw ir ic i0)) d' r = 0))).
    { intros x z d d' Hd. rewrite (forms_swap n (ga s) (pivoted s) x z d ir ic) by auto. fold asw.
      rewrite (forms_pivot n asw (pivoted s) x _ _ ic) by auto.
      split; intros H r R1; specialize (H r R1); rewrite <- H; apply form_ext; auto;
        first [intros c C1; first [apply GA; auto | symmetry; apply GA; auto | symmetry; apply PV] | symmetry; apply Hd; auto]. }
    assert (QE : forall c, qof (gindxr s') (gindxc s') (S i) c = qof (gindxr s) (gindxc s) i (sw ir ic c)).
    { intros c. cbn [qof]. assert (gindxr s' (S i) = ir /\ gindxc s' (S i) = ic) as [-> ->].
      { unfold s', vset. simpl. rewrite Nat.eqb_refl. auto. }
      apply qof_ext. intros l Hl. unfold s', vset. simpl. destruct (Nat.eqb_spec l (S i)); auto. lia. }
    split; [|split; [|split; [|split; [|split]]]].
    + exists (ic :: P). split. constructor; auto. { intros Q. destruct (PP ic Hc) as [[_ X]|[X _]]; [congruence|tauto]. }
      split. simpl; lia. split. { intros c [<-|I]; auto. }
      intros c C1. simpl. unfold vset. destruct (Nat.eqb_spec c ic).
      * left. auto.
      * destruct (PP c C1) as [[X Y]|[X Y]]; [left|right]; split; auto. intros [Q|Q]; [congruence|tauto].
    + intros l Hl. simpl. unfold vset. destruct (Nat.eqb_spec l (S i)); auto. apply I2. lia.
    + intros x y. rewrite I3. rewrite (EQ x _ (fun _ => 0) (fun _ => 0)).
      * fold s'. split; intros H r R1; specialize (H r R1); rewrite <- H; apply form_ext; auto; intros c C1; rewrite QE; auto.
      * intros r R1. unfold piv_vec. destruct (r =? ic)%nat; lra.
    + intros x k K1. rewrite I4 by auto. apply EQ. intros r R1. apply GB; auto.
    + intros r c NR. simpl. rewrite FA by auto. auto.
    + intros r c NR. simpl. rewrite FB by auto. auto.
Qed.

Lemma ginv_loop n m A B : forall d i s, (i + d = n)%nat -> ginv n m A B i s ->
  (ofold (gstep n m) (seq (S i) d) s = Err ErrCalculation /\ singular n A) \/
  (exists s', ofold (gstep n m) (seq (S i) d) s = Ok s' /\ ginv n m A B n s').
Proof.
  induction d as [|d IH]; intros i s L G.
  - right. exists s. simpl. split; auto. assert (i = n) by lia. subst i. auto.
  - destruct (ginv_step n m A B i s) as [[E S]|(s' & E & G')]; auto; try lia.
    + left. simpl. rewrite E. auto.
    + simpl. rewrite E. simpl. apply IH; auto. lia.
Qed.

(** * unscrambling *)
Lemma S1_sw n p q f : (1 <= p <= n)%nat -> (1 <= q <= n)%nat -> S1 n (fun c => f (sw p q c)) = S1 n f.
Proof.
  intros Hp Hq. destruct (Nat.eq_dec p q).
  { apply S1_ext. intros i _. f_equal. unfold sw. nat_eqs. }
  rewrite (S1_change n (fun c => f (sw p q c)) (fun c => if (c =? p)%nat then f p else f (sw p q c)) p Hp).
  2:{ intros i _ NE. nat_eqs. }
  rewrite (S1_change n (fun c => if (c =? p)%nat then f p else f (sw p q c)) f q Hq).
  2:{ intros i _ NE. unfold sw. nat_eqs. }
  unfold sw. rewrite !Nat.eqb_refl. destruct (Nat.eqb_spec q p); [congruence|]. lra.
Qed.

Lemma swap_cols_val n a p q i j : loop (up n) (fun k a => mswap a k p k q) a i j =
  if inr n i then a i (sw p q j) else a i j.
Proof.
  rewrite (row_loop (fun i j' a => a i (sw p q j')) (fun k a => mswap a k p k q) (fun _ => False)).
  - apply in_up_if.
  - intros i0 a0 i' j'. rewrite mswap_val. unfold sw. nat_eqs.
  - intros i0 j' a0 a1 E. apply E. auto.
  - tauto.
  - apply up_nodup.
Qed.

Lemma unscramble_spec n fr fc : forall i a, (i <= n)%nat ->
  (forall l, (1 <= l <= i)%nat -> (1 <= fr l <= n)%nat /\ (1 <= fc l <= n)%nat) ->
  let a' := loop (rev (up i)) (fun l a => if (fr l =? fc l)%nat then a else
    loop (up n) (fun k a => mswap a k (fr l) k (fc l)) a) a in
  (forall r y, (1 <= r <= n)%nat -> S1 n (fun c => a' r c * y c) = S1 n (fun c => a r c * y (qof fr fc i c))) /\
  (forall r c, ~ ((1 <= r <= n)%nat /\ (1 <= c <= n)%nat) -> a' r c = a r c).
Proof.
  induction i as [|i IH]; intros a L H; cbv zeta. { split; reflexivity. }
  assert (RU : rev (up (S i)) = S i :: rev (up i)).
  { unfold up. rewrite seq_S, rev_app_distr. reflexivity. }
  rewrite RU, loop_cons. clear RU. cbv zeta in IH. destruct (H (S i)) as [H1 H2]; [lia|].
  set (a1 := if (fr (S i) =? fc (S i))%nat then a else _).
  assert (A1 : forall r c, a1 r c = if inr n r then a r (sw (fr (S i)) (fc (S i)) c) else a r c).
  { intros r c. unfold a1. destruct (Nat.eqb_spec (fr (S i)) (fc (S i))) as [E|E].
    - rewrite E. assert (sw (fc (S i)) (fc (S i)) c = c) as -> by (unfold sw; nat_eqs). destruct (inr n r); auto.
    - apply swap_cols_val. }
  destruct (IH a1) as [J1 J2]; [lia| |]. { intros; apply H; lia. }
  split.
  - intros r y R1. rewrite (J1 r y R1).
    rewrite <- (S1_sw n (fr (S i)) (fc (S i))) by auto. apply S1_ext. intros c C1.
    rewrite A1, (proj2 (inr_spec n r)) by auto. rewrite sw_sw. auto.
  - intros r c NR. rewrite J2 by auto. rewrite A1. destruct (inr n r) eqn:E; auto.
    apply inr_spec in E. f_equal. unfold sw. nat_eqs; tauto.
Qed.

Lemma gaussj_spec n m A B :
  match gaussj n m A B with
  | Ok (A', B') =>
      (forall x y, solves n A x y <-> solves n A' y x) /\
      (forall x k, (1 <= k <= m)%nat -> (solves n A x (fun r => B r k) <->
         forall r, (1 <= r <= n)%nat -> x r = B' r k)) /\
      (forall r c, ~ ((1 <= r <= n)%nat /\ (1 <= c <= n)%nat) -> A' r c = A r c) /\
      (forall r k, ~ ((1 <= r <= n)%nat /\ (1 <= k <= m)%nat) -> B' r k = B r k)
  | Err e => e = ErrCalculation /\ singular n A
  | _ => False
  end.
Proof.
  unfold gaussj, up.
  destruct (ginv_loop n m A B n 0 _ eq_refl (ginv_init n m A B)) as [[E S]|(s' & E & G)]; rewrite E; simpl.
  { auto. }
  destruct G as ((P & ND & LP & PI & PP) & I2 & I3 & I4 & I5 & I6).
  destruct (unscramble_spec n (gindxr s') (gindxc s') n (ga s') (le_n n) I2) as [U1 U2].
  fold (unscramble n (ga s') (gindxr s') (gindxc s')) in U1, U2.
  assert (ALL : forall c, (1 <= c <= n)%nat -> pivoted s' c = true).
  { intros c Hc. unfold pivoted. destruct (PP c Hc) as [[_ ->]|[NI _]]; auto. exfalso. apply NI.
    apply (NoDup_length_incl ND (l' := up n)).
    - unfold up. rewrite seq_length. lia.
    - intros x Ix. apply up_in. auto.
    - apply up_in. auto. }
  split; [|split; [|split]]; auto.
  - intros x y. rewrite I3. unfold solves. split; intros H r R1; specialize (H r R1); revert H.
    + unfold form. rewrite (ALL r R1), U1 by auto. intros H.
      rewrite (S1_ext n _ (fun c => -1 * (ga s' r c * y (qof (gindxr s') (gindxc s') n c)))) in H.
      rewrite S1_scal in H. lra. intros c C1. rewrite (ALL c C1). lra.
    + unfold form. rewrite (ALL r R1), U1 by auto. intros H.
      rewrite (S1_ext n _ (fun c => -1 * (ga s' r c * y (qof (gindxr s') (gindxc s') n c)))).
      rewrite S1_scal. lra. intros c C1. rewrite (ALL c C1). lra.
  - intros x k K1. rewrite I4 by auto. 
    assert (FZ : forall r, (1 <= r <= n)%nat -> form n (ga s') (pivoted s') x (fun _ => 0) (fun r => gb s' r k) r = x r - gb s' r k).
    { intros r R1. unfold form. rewrite (ALL r R1).
      rewrite (S1_ext n _ (fun c => 0 * 0)). rewrite S1_scal. lra. intros c C1. rewrite (ALL c C1). lra. }
    split; intros H r R1; specialize (H r R1). rewrite FZ in H by auto. lra. rewrite FZ by auto. lra.
  - intros r c NR. rewrite U2 by auto. auto.
Qed.

(** * products *)
Lemma S1_swap n f : S1 n (fun i => S1 n (fun j => f i j)) = S1 n (fun j => S1 n (fun i => f i j)).
Proof. unfold S1. apply (rsum_swap n n (fun i j => f (S i) (S j))). Qed.

Lemma inverse_right n A A' : (forall x y, solves n A x y <-> solves n A' y x) ->
  forall r c, (1 <= r <= n)%nat -> (1 <= c <= n)%nat -> matprod n A A' r c = identity r c.
Proof.
  intros H r c R1 C1. unfold matprod.
  assert (Q : solves n A (fun k => A' k c) (fun k => identity k c)).
  { apply H. intros k K1. rewrite (S1_single n _ c); auto.
    - unfold identity. rewrite Nat.eqb_refl. lra.
    - intros i _ NE. unfold identity. destruct (Nat.eqb_spec i c); [congruence|]. lra. }
  apply Q; auto.
Qed.

Lemma solves_sym n A A' : (forall x y, solves n A x y <-> solves n A' y x) -> forall x y, solves n A' x y <-> solves n A y x.
Proof. intros H x y. symmetry. apply H. Qed.

(** a loop that only stores zeros *)
Lemma zero_loop (hit : nat -> nat -> nat -> bool) (f : nat -> fmat -> fmat) :
  (forall x a r c, f x a r c = if hit x r c then 0 else a r c) ->
  forall l a r c, loop l f a r c = if existsb (fun x => hit x r c) l then 0 else a r c.
Proof.
  intros H. induction l as [|x l IH]; intros a r c. reflexivity.
  rewrite loop_cons, IH. simpl. rewrite H. destruct (hit x r c); simpl; auto. destruct (existsb _ l); auto.
Qed.

Lemma existsb_iff {A} (f : A -> bool) l (P : Prop) : ((exists x, In x l /\ f x = true) <-> P) ->
  (existsb f l = true <-> P).
Proof. intros H. rewrite existsb_exists. auto. Qed.

Lemma covsrt_clear_val a ma k r c : (k <= ma)%nat -> covsrt_clear a ma k r c =
  if (inr ma r && inr ma c && (k <? Nat.max r c)%nat)%bool then 0 else a r c.
Proof.
  intros L. unfold covsrt_clear.
  rewrite (zero_loop (fun i r c => existsb (fun j => ((r =? j)%nat && (c =? i)%nat || (r =? i)%nat && (c =? j)%nat)%bool) (up i))).
  - match goal with |- (if ?x then _ else _) = (if ?y then _ else _) => assert (x = y) as ->; auto end.
    apply eq_true_iff_eq. rewrite existsb_exists, !andb_true_iff, !inr_spec, Nat.ltb_lt. split.
    + intros (i & I & E). rewrite in_seq in I. apply existsb_exists in E as (j & J & E). rewrite up_in in J.
      rewrite orb_true_iff, !andb_true_iff, !Nat.eqb_eq in E. lia.
    + intros ((R1 & C1) & M). exists (Nat.max r c). split. apply in_seq. lia.
      apply existsb_exists. exists (Nat.min r c). split. apply up_in. lia.
      rewrite orb_true_iff, !andb_true_iff, !Nat.eqb_eq. lia.
  - intros i a0 r0 c0.
    rewrite (zero_loop (fun j r c => ((r =? j)%nat && (c =? i)%nat || (r =? i)%nat && (c =? j)%nat)%bool)); auto.
    intros j a1 r1 c1. unfold mset. destruct ((r1 =? i)%nat && (c1 =? j)%nat)%bool; rewrite ?orb_true_r, ?orb_false_r; auto.
Qed.

Lemma rank_mono ia i : forall j, (i <= j)%nat -> (rank ia i <= rank ia j)%nat.
Proof.
  induction j as [|j IH]; intros L. replace i with O by lia. auto.
  destruct (Nat.eq_dec i (S j)). subst; auto. simpl. specialize (IH ltac:(lia)). lia.
Qed.
Lemma rank_le ia j : (rank ia j <= j)%nat.
Proof. induction j; simpl; auto. destruct (ia (S j)); lia. Qed.

(** where the entry of row or column i comes from when parameters above j are placed *)
Definition place (ia : nat -> bool) (j i : nat) : option nat :=
  if (i <=? rank ia j)%nat then Some i else if (i <=? j)%nat then None else
  if ia i then Some (rank ia i) else None.
Definition pick (C : fmat) (p q : option nat) : R :=
  match p, q with Some p, Some q => C p q | _, _ => 0 end.

Lemma place_step ia j i : (1 <= i)%nat -> place ia j i =
  if ia (S j) then place ia (S j) (sw (rank ia (S j)) (S j) i) else place ia (S j) i.
Proof.
  intros I1. pose proof (rank_le ia j) as L. unfold place. simpl rank. destruct (ia (S j)) eqn:E.
  - rewrite !Nat.add_1_r. unfold sw.
    destruct (Nat.eqb_spec i (S (rank ia j))); [subst i|destruct (Nat.eqb_spec i (S j)); [subst i|]];
    repeat match goal with
     | |- context [(?x <=? ?y)%nat] => destruct (Nat.leb_spec x y)
     end; try lia; auto.
    + assert (Q : rank ia j = j) by lia. rewrite Q, E. simpl rank. rewrite Q, E. f_equal. lia.
    + rewrite E. simpl rank. rewrite E. f_equal. lia.
  - rewrite !Nat.add_0_r.
    repeat match goal with
     | |- context [(?x <=? ?y)%nat] => destruct (Nat.leb_spec x y)
     end; try lia; auto. replace i with (S j) by lia. rewrite E. auto.
Qed.

Lemma sw_out n p q x : (1 <= p <= n)%nat -> (1 <= q <= n)%nat -> inr n x = false -> sw p q x = x.
Proof.
  intros Hp Hq Hx. unfold sw. apply inr_spec in Hp, Hq.
  destruct (Nat.eqb_spec x p); [congruence|]. destruct (Nat.eqb_spec x q); congruence.
Qed.

Lemma covsrt_loop C ma ia : forall j a, (j <= ma)%nat ->
  (forall r c, (1 <= r <= ma)%nat -> (1 <= c <= ma)%nat -> a r c = pick C (place ia j r) (place ia j c)) ->
  let (a', k') := loop (rev (up j)) (fun j s =>
    if ia j then
      let (a, k) := s : fmat * nat in
      let a := loop (up ma) (fun i a => mswap a i k i j) a in
      let a := loop (up ma) (fun i a => mswap a k i j i) a in
      (a, (k - 1)%nat)
    else s) (a, rank ia j) in
  k' = O /\
  (forall r c, (1 <= r <= ma)%nat -> (1 <= c <= ma)%nat -> a' r c = pick C (place ia 0 r) (place ia 0 c)) /\
  (forall r c, ~ ((1 <= r <= ma)%nat /\ (1 <= c <= ma)%nat) -> a' r c = a r c).
Proof.
  induction j as [|j IH]; intros a L H. { simpl. auto. }
  assert (RU : rev (up (S j)) = S j :: rev (up j)).
  { unfold up. rewrite seq_S, rev_app_distr. reflexivity. }
  rewrite RU, loop_cons. clear RU.
  pose proof (rank_le ia (S j)) as RL.
  destruct (ia (S j)) eqn:E.
  - set (k := rank ia (S j)) in *. assert (K : (k - 1)%nat = rank ia j) by (unfold k; simpl; rewrite E; lia).
    assert (K1 : (1 <= k)%nat) by (unfold k; simpl; rewrite E; lia).
    rewrite K. 
    set (a1 := loop (up ma) (fun i a => mswap a i k i (S j)) a).
    change (loop (up ma) (fun i a => mswap a k i (S j) i) a1) with (swap_rows ma a1 k (S j)).
    assert (V : forall r c, swap_rows ma a1 k (S j) r c =
       if inr ma c then (if inr ma r then a (sw k (S j) r) (sw k (S j) c) else a r c) else a r c).
    { intros r c. rewrite swap_rows_val. unfold a1. rewrite !swap_cols_val.
      assert (S1' : inr ma (sw k (S j) r) = inr ma r).
      { apply eq_true_iff_eq. rewrite !inr_spec. unfold sw. nat_eqs. }
      assert (S2' : inr ma c = false -> sw k (S j) c = c).
      { apply sw_out; lia. }
      rewrite S1'. destruct (inr ma c) eqn:Ec; destruct (inr ma r) eqn:Er; auto.
      - rewrite (sw_out ma); auto; lia.
    }
    specialize (IH (swap_rows ma a1 k (S j)) ltac:(lia)).
    match type of IH with ?P -> _ => assert (Q : P) end.
    { intros r c R1 C1. rewrite V, (proj2 (inr_spec ma r)), (proj2 (inr_spec ma c)) by auto.
      rewrite H by (apply sw_in; lia).
      rewrite (place_step ia j r), (place_step ia j c), E by lia. reflexivity. }
    specialize (IH Q).
    destruct (loop (rev (up j)) _ _) as [a' k']. destruct IH as (J1 & J2 & J3). split; auto. split; auto.
    intros r c NR. rewrite J3 by auto. rewrite V. destruct (inr ma c) eqn:Ec; auto. destruct (inr ma r) eqn:Er; auto.
    rewrite inr_spec in Ec, Er. tauto.
  - assert (K : rank ia (S j) = rank ia j) by (simpl; rewrite E; lia). rewrite K. apply IH. lia.
    intros r c R1 C1. rewrite (place_step ia j r), (place_step ia j c), E by lia. auto.
Qed.

Lemma covsrt_spec C ma ia :
  (forall r c, (1 <= r <= ma)%nat -> (1 <= c <= ma)%nat ->
     covsrt C ma ia (rank ia ma) r c = if (ia r && ia c)%bool then C (rank ia r) (rank ia c) else 0) /\
  (forall r c, ~ ((1 <= r <= ma)%nat /\ (1 <= c <= ma)%nat) -> covsrt C ma ia (rank ia ma) r c = C r c).
Proof.
  unfold covsrt, covsrt_spread. pose proof (rank_le ia ma) as RL.
  pose proof (covsrt_loop C ma ia ma (covsrt_clear C ma (rank ia ma)) (le_n ma)) as H.
  match type of H with ?P -> _ => assert (Q : P) end.
  { intros r c R1 C1. rewrite covsrt_clear_val by auto. rewrite (proj2 (inr_spec ma r)), (proj2 (inr_spec ma c)) by auto.
    unfold place. destruct (Nat.leb_spec r ma); [|lia]. destruct (Nat.leb_spec c ma); [|lia].
    destruct (Nat.leb_spec r (rank ia ma)); destruct (Nat.leb_spec c (rank ia ma));
      destruct (Nat.ltb_spec (rank ia ma) (Nat.max r c)); simpl; auto; lia. }
  specialize (H Q). clear Q. destruct (loop (rev (up ma)) _ _) as [a' k']. simpl. destruct H as (_ & J2 & J3). split.
  - intros r c R1 C1. rewrite J2 by auto. unfold place. simpl.
    destruct r; [lia|]. destruct c; [lia|]. simpl. destruct (ia (S r)), (ia (S c)); reflexivity.
  - intros r c NR. rewrite J3 by auto. rewrite covsrt_clear_val by auto.
    destruct (inr ma r) eqn:Er; auto. destruct (inr ma c) eqn:Ec; auto. rewrite inr_spec in Er, Ec. tauto.
Qed.

Lemma inverse_not_singular n A A' : (forall x y, solves n A x y <-> solves n A' y x) -> ~ singular n A.
Proof.
  intros H (x & (c & C1 & NZ) & K). apply H in K. apply NZ. rewrite <- (K c C1).
  rewrite (S1_ext n _ (fun _ => 0 * 0)). rewrite S1_scal. lra. intros. lra.
Qed.

Lemma gaussj_full n m A B :
  (exists A' B', gaussj n m A B = Ok (A', B') /\
     (forall r c, (1 <= r <= n)%nat -> (1 <= c <= n)%nat ->
        matprod n A A' r c = identity r c /\ matprod n A' A r c = identity r c) /\
     (forall r k, (1 <= r <= n)%nat -> (1 <= k <= m)%nat -> S1 n (fun c => A r c * B' c k) = B r k) /\
     (forall r c, ~ ((1 <= r <= n)%nat /\ (1 <= c <= n)%nat) -> A' r c = A r c) /\
     (forall r k, ~ ((1 <= r <= n)%nat /\ (1 <= k <= m)%nat) -> B' r k = B r k) /\
     ~ singular n A) \/
  (gaussj n m A B = Err ErrCalculation /\ singular n A).
Proof.
  pose proof (gaussj_spec n m A B) as H. destruct (gaussj n m A B) as [[A' B']|e| |]; try contradiction.
  - destruct H as (H1 & H2 & H3 & H4). left. exists A', B'. split; auto. split; [|split; [|split; [|split]]]; auto.
    + intros r c R1 C1. split. apply inverse_right; auto. apply inverse_right; auto. apply solves_sym; auto.
    + intros r k R1 K1. apply (proj2 (H2 (fun c => B' c k) k K1)); auto.
    + eapply inverse_not_singular; eauto.
  - destruct H as [-> S]. right. auto.
Qed.

Lemma gaussj_unique n m A B A' B' k x : gaussj n m A B = Ok (A', B') -> (1 <= k <= m)%nat ->
  solves n A x (fun r => B r k) -> forall r, (1 <= r <= n)%nat -> x r = B' r k.
Proof.
  intros G K1. pose proof (gaussj_spec n m A B) as H. rewrite G in H. destruct H as (_ & H2 & _).
  apply (H2 x k K1).
Qed.
