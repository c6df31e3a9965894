From Coq Require Import List Arith Reals Lra Lia.
From Verif Require Import Base MatrixModel MatrixProof RSum ErrorModel.
Import ListNotations.

Lemma mx_rowcol_spec {T : Type} (a : matrix T) k : mwf a ->
  (k < mrows a -> exists r, mx_row a k = Ok r /\ length r = mcols a /\
    forall j, j < mcols a -> omap (@Some T) (mx_get a k j) = Ok (nth_error r j)) /\
  (k < mcols a -> exists r, mx_col a k = Ok r /\ length r = mrows a /\
    forall i, i < mrows a -> omap (@Some T) (mx_get a i k) = Ok (nth_error r i)).
Proof. split; intros; [apply mx_row_spec|apply mx_col_spec]; auto. Qed.

Lemma mx_mul_R (a b : matrix R) : mwf a -> mwf b ->
  (mcols a <> mrows b -> mx_mul 0%R Rplus Rmult a b = Err ErrPlain) /\
  (mcols a = mrows b -> exists c, mx_mul 0%R Rplus Rmult a b = Ok c /\ mwf c /\
     mrows c = mrows a /\ mcols c = mcols b /\
     forall i j, i < mrows a -> j < mcols b ->
       mx_get c i j = Ok (rsum (mcols a) (fun k => ent 0 a i k * ent 0 b k j))%R).
Proof.
  intros Wa Wb. destruct (mx_mul_spec 0%R Rplus Rmult a b Wa Wb) as [A B]. split; auto.
  intros E. destruct (B E) as (c & C1 & C2 & C3 & C4 & C5). exists c. repeat split; auto.
  intros i j Hi Hj. rewrite C5 by auto. f_equal.
  rewrite (fold_rsum (fun k => ent 0 a i k * ent 0 b k j)%R). lra.
Qed.

Lemma propagate_spec (J C : matrix R) : mwf J -> mwf C -> mrows C = mcols C -> mcols J = mcols C ->
  exists dp dv, propagate J C = Ok (dp, dv) /\
    length dp = mcols C /\ length dv = mrows J /\
    (forall i, i < mcols C -> nth_error dp i = Some (sqrt (ent 0%R C i i))) /\
    (forall i, i < mrows J -> nth_error dv i =
       Some (sqrt (rsum (mcols C) (fun l => rsum (mcols C) (fun k => ent 0 J i k * ent 0 C k l * ent 0 J i l))))%R).
Proof.
  intros WJ WC Sq E. unfold propagate.
  destruct (mx_transposed_spec 0%R J WJ) as (Jt & T1 & T2 & T3 & T4 & T5). rewrite T1. simpl.
  destruct (mx_sd_spec 0%R sqrt C WC) as [_ S]. destruct (S Sq) as (dp & S1 & S2 & S3). rewrite S1. simpl.
  destruct (mx_mul_R J C WJ WC) as [_ M]. destruct (M ltac:(lia)) as (JC & M1 & M2 & M3 & M4 & M5). rewrite M1. simpl.
  destruct (mx_mul_R JC Jt M2 T2) as [_ M']. destruct (M' ltac:(lia)) as (V & V1 & V2 & V3 & V4 & V5). rewrite V1. simpl.
  destruct (mx_sd_spec 0%R sqrt V V2) as [_ S']. destruct (S' ltac:(lia)) as (dv & D1 & D2 & D3). rewrite D1. simpl.
  exists dp, dv. split; auto. split; auto. split; [congruence|]. split.
  - intros i Hi. destruct (S3 i Hi) as (x & X1 & X2). unfold ent. rewrite X1. auto.
  - intros i Hi. destruct (D3 i ltac:(lia)) as (x & X1 & X2). rewrite X2. do 2 f_equal.
    rewrite V5 in X1 by lia. inversion X1. rewrite M4. apply rsum_ext. intros l Hl.
    assert (A : ent 0%R JC i l = rsum (mcols J) (fun k => ent 0 J i k * ent 0 C k l)%R).
    { unfold ent at 1. rewrite M5 by lia. auto. }
    assert (B : ent 0%R Jt l i = ent 0%R J i l). { unfold ent. rewrite T5 by lia. auto. }
    rewrite A, B, E. rewrite <- rsum_scal_r. auto.
Qed.

Lemma propagate_mismatch (J C : matrix R) : mwf J -> mwf C -> mrows C <> mcols C \/ mcols J <> mrows C ->
  propagate J C = Err ErrPlain.
Proof.
  intros WJ WC H. unfold propagate.
  destruct (mx_transposed_spec 0%R J WJ) as (Jt & T1 & _). rewrite T1. simpl.
  destruct (mx_sd_spec 0%R sqrt C WC) as [S1 S2].
  destruct (Nat.eq_dec (mrows C) (mcols C)) as [E|E].
  - destruct (S2 E) as (dp & -> & _). simpl. destruct (mx_mul_R J C WJ WC) as [M _]. rewrite M by lia. auto.
  - rewrite S1 by auto. auto.
Qed.

Lemma fill_errors_spec {T} (refvar : list (option nat)) : forall (dvar sd : list T),
  length refvar = length sd -> (forall k, In (Some k) refvar -> k < length dvar) ->
  exists sd', fill_errors refvar dvar sd = Ok sd' /\ length sd' = length sd /\
    forall i r, nth_error refvar i = Some r ->
      nth_error sd' i = match r with Some k => nth_error dvar k | None => nth_error sd i end.
Proof.
  induction refvar as [|r rs IH]; intros dvar sd L H; destruct sd as [|s ss]; try discriminate; simpl.
  - exists []. repeat split; auto. destruct i; discriminate.
  - destruct (IH dvar ss) as (sd' & A & B & C); auto. { intros; apply H; right; auto. }
    assert (exists s', match r with None => Ok s | Some k => rd dvar k end = Ok s' /\
       Some s' = match r with Some k => nth_error dvar k | None => Some s end) as (s' & E1 & E2).
    { destruct r as [k|]; [|eauto]. destruct (rd_ok dvar k) as (x & X1 & X2). apply H; left; auto. rewrite X2, X1; eauto. }
    rewrite E1. simpl. rewrite A. simpl. eexists; split; [reflexivity|]. simpl. split; auto.
    intros [|i] r' E; simpl in *. inversion E; subst; auto. auto.
Qed.

Lemma nth_error_ext {A} (l l' : list A) : (forall n, nth_error l n = nth_error l' n) -> l = l'.
Proof.
  revert l'; induction l; intros [|b l'] H; auto.
  - specialize (H 0); discriminate.
  - specialize (H 0); discriminate.
  - f_equal. specialize (H 0); simpl in H; congruence. apply IHl. intros n. apply (H (S n)).
Qed.

Lemma mx_ext {T} (a b : matrix T) : mwf a -> mwf b -> mrows a = mrows b -> mcols a = mcols b ->
  (forall i j, i < mrows a -> j < mcols a -> mx_get a i j = mx_get b i j) -> a = b.
Proof.
  intros Wa Wb R C H. destruct a as [r c d], b as [r' c' d']. unfold mwf in *. simpl in *. subst r' c'. f_equal.
  apply nth_error_ext. intros n.
  destruct (Nat.lt_ge_cases n (r * c)) as [L|L].
  - assert (c <> 0) by (intros ->; lia).
    pose proof (Nat.div_mod n c ltac:(auto)). pose proof (Nat.mod_upper_bound n c ltac:(auto)).
    assert (n / c < r) by (apply Nat.div_lt_upper_bound; lia).
    specialize (H (n / c) (n mod c) ltac:(auto) ltac:(auto)). unfold mx_get, rd in H. simpl in H.
    replace (n / c * c + n mod c) with n in H by lia.
    destruct (Nat.ltb_spec (n / c) r); [|lia]. destruct (Nat.ltb_spec (n mod c) c); [|lia]. simpl in H.
    destruct (nth_error d n) eqn:E1; destruct (nth_error d' n) eqn:E2; congruence.
  - rewrite !(proj2 (nth_error_None _ _)); auto; lia.
Qed.

Lemma transposed_twice {T} (z : T) (a : matrix T) : mwf a ->
  obind (mx_transposed z a) (mx_transposed z) = Ok a.
Proof.
  intros W. destruct (mx_transposed_spec z a W) as (b & E1 & W1 & R1 & C1 & H1). rewrite E1. simpl.
  destruct (mx_transposed_spec z b W1) as (c & E2 & W2 & R2 & C2 & H2). rewrite E2. f_equal.
  apply mx_ext; auto; try congruence. intros i j Hi Hj. rewrite <- H1 by lia. apply H2; lia.
Qed.

Lemma transposed_product (a b : matrix R) : mwf a -> mwf b -> mcols a = mrows b ->
  obind (mx_mul 0%R Rplus Rmult a b) (mx_transposed 0%R) =
  obind (mx_transposed 0%R a) (fun at_ => obind (mx_transposed 0%R b) (fun bt =>
    mx_mul 0%R Rplus Rmult bt at_)).
Proof.
  intros Wa Wb E.
  destruct (mx_mul_R a b Wa Wb) as [_ M]. destruct (M E) as (c & C1 & C2 & C3 & C4 & C5). rewrite C1. simpl.
  destruct (mx_transposed_spec 0%R c C2) as (ct & T1 & T2 & T3 & T4 & T5). rewrite T1.
  destruct (mx_transposed_spec 0%R a Wa) as (at_ & A1 & A2 & A3 & A4 & A5). rewrite A1. simpl.
  destruct (mx_transposed_spec 0%R b Wb) as (bt & B1 & B2 & B3 & B4 & B5). rewrite B1. simpl.
  destruct (mx_mul_R bt at_ B2 A2) as [_ M']. destruct (M' ltac:(lia)) as (d & D1 & D2 & D3 & D4 & D5). rewrite D1. f_equal.
  apply mx_ext; auto; try congruence. intros i j Hi Hj.
  rewrite T5 by lia. rewrite C5, D5 by lia. f_equal. rewrite B4, <- E. apply rsum_ext. intros k Hk.
  unfold ent. rewrite A5, B5 by lia. lra.
Qed.
