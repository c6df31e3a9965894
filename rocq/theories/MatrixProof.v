From Coq Require Import List Arith Lia Bool.
From Verif Require Import Base ParamProof MatrixModel.
Import ListNotations.

Section Fold.
Context {T : Type}.

Lemma rd_ok (l : list T) i : i < length l -> exists x, nth_error l i = Some x /\ rd l i = Ok x.
Proof.
  intros H. unfold rd. destruct (nth_error l i) eqn:E. eauto. apply nth_error_None in E. lia.
Qed.

Lemma wr_ok (l : list T) i x : i < length l -> wr l i x = Ok (upd i x l).
Proof. intros H. unfold wr. destruct (Nat.ltb_spec i (length l)); auto; lia. Qed.

Lemma ofold_app {S A} (f : S -> A -> outcome S) l1 l2 s :
  ofold f (l1 ++ l2) s = obind (ofold f l1 s) (ofold f l2).
Proof.
  revert s; induction l1; simpl; intros; auto. destruct (f s a); simpl; auto.
Qed.

Lemma ofold_ext {S A} (f g : S -> A -> outcome S) l s :
  (forall s a, In a l -> f s a = g s a) -> ofold f l s = ofold g l s.
Proof.
  revert s; induction l; simpl; intros; auto. rewrite H by auto.
  destruct (g s a); simpl; auto.
Qed.

(** a loop of writes at distinct positions *)
Lemma ofold_writes {A} (pos : A -> nat) (src : A -> outcome T) (ks : list A) : forall d,
  (forall k, In k ks -> pos k < length d /\ exists v, src k = Ok v) ->
  NoDup (map pos ks) ->
  exists d', ofold (fun d k => obind (src k) (fun v => wr d (pos k) v)) ks d = Ok d' /\
    length d' = length d /\
    (forall k v, In k ks -> src k = Ok v -> nth_error d' (pos k) = Some v) /\
    (forall p, ~ In p (map pos ks) -> nth_error d' p = nth_error d p).
Proof.
  induction ks as [|k ks IH]; intros d H ND.
  - exists d. simpl. repeat split; auto; tauto.
  - inversion ND as [|? ? N1 N2]; subst. destruct (H k) as [Hp [v Hv]]; [left; auto|].
    simpl. rewrite Hv. simpl. rewrite wr_ok by auto. simpl.
    destruct (IH (upd (pos k) v d)) as (d' & A1 & A2 & A3 & A4); auto.
    { intros k' I. rewrite upd_length. apply H; right; auto. }
    exists d'. split; auto. rewrite upd_length in A2. split; auto. split.
    + intros k' v' [->|I] E; auto. rewrite A4 by auto. rewrite Hv in E. inversion E; subst. apply upd_same; auto.
    + intros p N. rewrite A4 by tauto. apply upd_other. tauto.
Qed.

(** writes at consecutive positions *)
Lemma ofold_pushes {A} (src : A -> outcome T) (ks : list A) : forall d pt,
  (forall k, In k ks -> exists v, src k = Ok v) -> pt + length ks <= length d ->
  exists d', ofold (fun '(d, pt) k => obind (src k) (fun v => omap (fun d' => (d', S pt)) (wr d pt v))) ks (d, pt)
      = Ok (d', pt + length ks) /\ length d' = length d /\
    (forall n k, nth_error ks n = Some k -> omap (@Some T) (src k) = Ok (nth_error d' (pt + n))) /\
    (forall p, p < pt \/ pt + length ks <= p -> nth_error d' p = nth_error d p).
Proof.
  induction ks as [|k ks IH]; intros d pt H L.
  - exists d. simpl. rewrite Nat.add_0_r. repeat split; auto. destruct n; discriminate.
  - destruct (H k) as [v Hv]; [left; auto|]. simpl in L |- *. rewrite Hv. simpl. rewrite wr_ok by lia. simpl.
    destruct (IH (upd pt v d) (S pt)) as (d' & A1 & A2 & A3 & A4); auto.
    { intros; apply H; right; auto. } { rewrite upd_length. lia. }
    rewrite upd_length in A2. exists d'. split. rewrite A1. do 2 f_equal. lia. split; auto. split.
    + intros [|n] k' E; simpl in E.
      * inversion E; subst k'. rewrite Nat.add_0_r, A4 by lia. rewrite Hv. simpl. rewrite upd_same by lia. auto.
      * replace (pt + S n) with (S pt + n) by lia. apply A3; auto.
    + intros p Hp. rewrite A4 by lia. apply upd_other. lia.
Qed.

Lemma loop2_in m n i j : In (i, j) (loop2 m n) <-> i < m /\ j < n.
Proof. unfold loop2. rewrite in_prod_iff, !in_seq. lia. Qed.

Lemma loop2_nth_gen m n : forall s i j, i < m -> j < n ->
  nth_error (list_prod (seq s m) (seq 0 n)) (i * n + j) = Some (s + i, j).
Proof.
  induction m; intros s i j Hi Hj; [lia|]. simpl.
  destruct i.
  - simpl. rewrite nth_error_app1 by (rewrite map_length, seq_length; auto).
    rewrite nth_error_map. rewrite (nth_error_nth' _ 0) by (rewrite seq_length; auto).
    rewrite seq_nth by auto. simpl. do 2 f_equal. lia.
  - rewrite nth_error_app2; rewrite map_length, seq_length; [|simpl; lia].
    replace (S i * n + j - n) with (i * n + j) by (simpl; lia).
    rewrite IHm by lia. do 2 f_equal. lia.
Qed.

Lemma loop2_nth m n i j : i < m -> j < n -> nth_error (loop2 m n) (i * n + j) = Some (i, j).
Proof. intros. unfold loop2. rewrite loop2_nth_gen by auto. auto. Qed.

Lemma loop2_length m n : length (loop2 m n) = m * n.
Proof. unfold loop2. rewrite prod_length, !seq_length. auto. Qed.

Lemma pos_inj n i j i' j' : j < n -> j' < n -> i * n + j = i' * n + j' -> i = i' /\ j = j'.
Proof.
  intros. destruct (Nat.lt_trichotomy i i') as [L|[E|L]].
  - exfalso. nia.
  - subst. lia.
  - exfalso. nia.
Qed.

Lemma nodup_pos (ks : list (nat * nat)) n : (forall i j, In (i, j) ks -> j < n) -> NoDup ks ->
  NoDup (map (fun '(i, j) => i * n + j) ks).
Proof.
  intros B ND. induction ND as [|[i j] ks N ND IH]; simpl; constructor; auto.
  - intros I. apply in_map_iff in I as ([i' j'] & E & I). apply N.
    destruct (pos_inj n i' j' i j) as [-> ->]; auto. apply (B i' j'); right; auto. apply (B i j); left; auto.
  - apply IH. intros; eapply B; right; eauto.
Qed.

Lemma loop2_nodup m n : NoDup (loop2 m n).
Proof.
  apply NoDup_nth_error. intros a b L E.
  rewrite loop2_length in L.
  assert (n <> 0) by (intros ->; lia).
  assert (Lb : b < length (loop2 m n)). { apply nth_error_Some. rewrite <- E. apply nth_error_Some. rewrite loop2_length; auto. }
  rewrite loop2_length in Lb.
  pose proof (Nat.div_mod a n ltac:(auto)) as Ea. pose proof (Nat.div_mod b n ltac:(auto)) as Eb.
  pose proof (Nat.mod_upper_bound a n ltac:(auto)). pose proof (Nat.mod_upper_bound b n ltac:(auto)).
  assert (a / n < m) by (apply Nat.div_lt_upper_bound; lia).
  assert (b / n < m) by (apply Nat.div_lt_upper_bound; lia).
  replace a with (a / n * n + a mod n) in E by lia. replace b with (b / n * n + b mod n) in E by lia.
  rewrite !loop2_nth in E by auto. inversion E. lia.
Qed.
End Fold.

Section Mx.
Context {T : Type}.

Definition mwf (a : matrix T) : Prop := length (mdata a) = mrows a * mcols a.

Lemma mx_get_ok (a : matrix T) i j : mwf a -> i < mrows a -> j < mcols a -> exists v, mx_get a i j = Ok v.
Proof.
  intros W Hi Hj. unfold mx_get.
  destruct (Nat.ltb_spec i (mrows a)); [|lia]. destruct (Nat.ltb_spec j (mcols a)); [|lia]. simpl.
  destruct (rd_ok (mdata a) (i * mcols a + j)) as (x & _ & E). rewrite W. nia. eauto.
Qed.

Lemma mx_get_nth (a : matrix T) i j v : i < mrows a -> j < mcols a ->
  nth_error (mdata a) (i * mcols a + j) = Some v -> mx_get a i j = Ok v.
Proof.
  intros Hi Hj E. unfold mx_get.
  destruct (Nat.ltb_spec i (mrows a)); [|lia]. destruct (Nat.ltb_spec j (mcols a)); [|lia]. simpl.
  unfold rd. rewrite E. auto.
Qed.

Lemma mx_get_inv (a : matrix T) i j v : mx_get a i j = Ok v ->
  i < mrows a /\ j < mcols a /\ nth_error (mdata a) (i * mcols a + j) = Some v.
Proof.
  unfold mx_get. destruct (Nat.ltb_spec i (mrows a)); [|discriminate]. destruct (Nat.ltb_spec j (mcols a)); [|discriminate].
  simpl. unfold rd. destruct (nth_error (mdata a) (i * mcols a + j)); inversion 1; auto.
Qed.

Lemma mwf_new (z : T) m n : mwf (mx_new z m n).
Proof. unfold mwf; simpl. apply repeat_length. Qed.

Lemma nth_error_repeat_in {A} (x : A) n p : p < n -> nth_error (repeat x n) p = Some x.
Proof. revert p; induction n; destruct p; simpl; intros; try lia; auto. apply IHn; lia. Qed.

Lemma mx_new_get (z : T) m n i j : i < m -> j < n -> mx_get (mx_new z m n) i j = Ok z.
Proof.
  intros. apply mx_get_nth; simpl; auto. apply nth_error_repeat_in. nia.
Qed.

Lemma mx_fill_get (v : T) (a : matrix T) i j : mwf a -> i < mrows a -> j < mcols a ->
  mx_get (mx_fill v a) i j = Ok v /\ mwf (mx_fill v a).
Proof.
  intros W Hi Hj. split. apply mx_get_nth; simpl; auto. apply nth_error_repeat_in. rewrite W; nia.
  unfold mwf; simpl. rewrite repeat_length. auto.
Qed.

Lemma mx_set_spec (a : matrix T) i j v : mwf a -> i < mrows a -> j < mcols a ->
  exists b, mx_set a i j v = Ok b /\ mwf b /\ mrows b = mrows a /\ mcols b = mcols a /\
    mx_get b i j = Ok v /\
    forall i' j', (i', j') <> (i, j) -> mx_get b i' j' = mx_get a i' j'.
Proof.
  intros W Hi Hj. unfold mx_set.
  destruct (Nat.ltb_spec i (mrows a)); [|lia]. destruct (Nat.ltb_spec j (mcols a)); [|lia]. simpl.
  rewrite wr_ok by (rewrite W; nia). simpl. eexists; split; [reflexivity|].
  unfold mwf; simpl. rewrite upd_length. repeat split; auto.
  - apply mx_get_nth; simpl; auto. apply upd_same. rewrite W; nia.
  - intros i' j' N. unfold mx_get. simpl.
    destruct (Nat.ltb_spec i' (mrows a)); simpl; auto. destruct (Nat.ltb_spec j' (mcols a)); simpl; auto.
    unfold rd. rewrite upd_other; auto. intros E. apply N.
    destruct (pos_inj _ _ _ _ _ H0 H2 E). congruence.
Qed.

(** what resize must do *)
Lemma mx_resize_spec (z : T) (a : matrix T) m n : mwf a ->
  exists b, mx_resize z a m n = Ok b /\ mwf b /\ mrows b = m /\ mcols b = n /\
    forall i j, i < m -> j < n ->
      mx_get b i j = if ((i <? mrows a) && (j <? mcols a))%bool then mx_get a i j else Ok z.
Proof.
  intros W. unfold mx_resize.
  destruct (Nat.eqb_spec m (mrows a)); destruct (Nat.eqb_spec n (mcols a)); cbn [andb].
  { exists a. repeat split; auto. intros i j Hi Hj. subst.
    destruct (Nat.ltb_spec i (mrows a)); [|lia]. destruct (Nat.ltb_spec j (mcols a)); [|lia]. auto. }
  all: destruct (ofold_writes (fun '(i, j) => i * n + j) (fun '(i, j) => mx_get a i j)
     (loop2 (min m (mrows a)) (min n (mcols a))) (repeat z (m * n))) as (d & A1 & A2 & A3 & A4);
   [ intros [i j] I; apply loop2_in in I; rewrite repeat_length; split; [nia|apply mx_get_ok; auto; lia]
   | apply nodup_pos; [intros i j I; apply loop2_in in I; lia | apply loop2_nodup]
   | ];
   (rewrite (ofold_ext _ (fun d k => obind (let '(i, j) := k in mx_get a i j)
        (fun v => wr d (let '(i, j) := k in i * n + j) v))) by (intros ? [? ?] _; reflexivity));
   rewrite A1; simpl; eexists; split; [reflexivity|]; unfold mwf; simpl;
   rewrite repeat_length in A2; repeat split; auto; intros i j Hi Hj;
   destruct (Nat.ltb_spec i (mrows a)); destruct (Nat.ltb_spec j (mcols a)); cbn [andb];
   try (destruct (mx_get_ok a i j W) as [v Ev]; auto; rewrite Ev; apply mx_get_nth; simpl; auto;
        apply (A3 (i, j) v); auto; apply loop2_in; lia);
   apply mx_get_nth; simpl; auto; rewrite A4 by
    (intros I; apply in_map_iff in I as ([i' j'] & E & I); apply loop2_in in I;
     destruct (pos_inj n i' j' i j) as [-> ->]; auto; lia);
   apply nth_error_repeat_in; nia.
Qed.

Lemma mx_transposed_spec (z : T) (a : matrix T) : mwf a ->
  exists b, mx_transposed z a = Ok b /\ mwf b /\ mrows b = mcols a /\ mcols b = mrows a /\
    forall i j, i < mrows a -> j < mcols a -> mx_get b j i = mx_get a i j.
Proof.
  intros W. unfold mx_transposed.
  destruct (ofold_pushes (fun '(j, i) => mx_get a i j) (loop2 (mcols a) (mrows a))
     (repeat z (mcols a * mrows a)) 0) as (d & A1 & A2 & A3 & A4).
  { intros [j i] I. apply loop2_in in I. apply mx_get_ok; auto; lia. }
  { rewrite loop2_length, repeat_length. lia. }
  rewrite (ofold_ext _ (fun '(d, pt) k => obind (let '(j, i) := k in mx_get a i j)
     (fun v => omap (fun d' => (d', S pt)) (wr d pt v)))) by (intros [? ?] [? ?] _; reflexivity).
  rewrite A1. simpl. eexists; split; [reflexivity|]. rewrite repeat_length in A2. unfold mwf; simpl.
  repeat split; auto. intros i j Hi Hj. destruct (mx_get_ok a i j W) as [v Ev]; auto. rewrite Ev.
  pose proof (A3 (j * mrows a + i) (j, i) (loop2_nth _ _ _ _ Hj Hi)) as E. cbv beta iota in E. rewrite Ev in E. simpl in E.
  apply mx_get_nth; simpl; auto. congruence.
Qed.

Lemma nth_error_firstn_lt {A} (l : list A) n k : k < n -> nth_error (firstn n l) k = nth_error l k.
Proof. revert n k; induction l; destruct n, k; simpl; intros; try lia; auto. apply IHl; lia. Qed.

Lemma nth_error_skipn_plus {A} (l : list A) n k : nth_error (skipn n l) k = nth_error l (n + k).
Proof. revert l; induction n; destruct l; simpl; auto. destruct k; auto. Qed.

Lemma mx_row_spec (a : matrix T) i : mwf a -> i < mrows a ->
  exists r, mx_row a i = Ok r /\ length r = mcols a /\
    forall j, j < mcols a -> omap (@Some T) (mx_get a i j) = Ok (nth_error r j).
Proof.
  intros W Hi. unfold mx_row. destruct (Nat.leb_spec (mcols a * (i + 1)) (length (mdata a))).
  2:{ rewrite W in H. nia. }
  eexists; split; [reflexivity|]. split. { rewrite firstn_length, skipn_length. lia. }
  intros j Hj. destruct (mx_get_ok a i j W) as [v Ev]; auto. rewrite Ev.
  apply mx_get_inv in Ev as (_ & _ & E). rewrite nth_error_firstn_lt by auto. rewrite nth_error_skipn_plus.
  rewrite Nat.mul_comm, E. auto.
Qed.

Lemma col_walk_spec (d : list T) cols n : forall pt,
  (forall k, k < n -> pt + k * cols < length d) ->
  exists r, col_walk d cols n pt = Ok r /\ length r = n /\
    forall k, k < n -> nth_error r k = nth_error d (pt + k * cols).
Proof.
  induction n; intros pt H.
  - exists []. repeat split; auto. intros; lia.
  - simpl. destruct (rd_ok d pt) as (x & E1 & E2). { specialize (H 0); lia. }
    rewrite E2. simpl. destruct (IHn (pt + cols)) as (r & A1 & A2 & A3).
    { intros k Hk. specialize (H (S k)). simpl in H. lia. }
    rewrite A1. simpl. eexists; split; [reflexivity|]. simpl. split; auto.
    intros [|k] Hk; simpl. rewrite Nat.add_0_r; auto. rewrite A3 by lia. f_equal. lia.
Qed.

Lemma mx_col_spec (a : matrix T) j : mwf a -> j < mcols a ->
  exists r, mx_col a j = Ok r /\ length r = mrows a /\
    forall i, i < mrows a -> omap (@Some T) (mx_get a i j) = Ok (nth_error r i).
Proof.
  intros W Hj. unfold mx_col. destruct (col_walk_spec (mdata a) (mcols a) (mrows a) j) as (r & A1 & A2 & A3).
  { intros k Hk. rewrite W. nia. }
  exists r. repeat split; auto. intros i Hi. destruct (mx_get_ok a i j W) as [v Ev]; auto. rewrite Ev.
  apply mx_get_inv in Ev as (_ & _ & E). rewrite A3 by auto. rewrite Nat.add_comm, E. auto.
Qed.

Lemma sd_walk_spec (sq : T -> T) (a : matrix T) n : mwf a -> mrows a = n -> mcols a = n ->
  forall fuel k v, n - k < fuel -> k <= n -> length v = n ->
  exists r, sd_walk sq fuel a (k * (n + 1)) k v = Ok r /\ length r = n /\
    (forall i, i < k -> nth_error r i = nth_error v i) /\
    (forall i, k <= i < n -> exists x, mx_get a i i = Ok x /\ nth_error r i = Some (sq x)).
Proof.
  intros W R C. induction fuel; intros k v Hf Hk Hv; [lia|]. simpl.
  pose proof W as W0. unfold mwf in W. rewrite R, C in W.
  destruct (Nat.ltb_spec (k * (n + 1)) (length (mdata a))) as [L|L].
  - assert (k < n) by (rewrite W in L; nia).
    destruct (mx_get_ok a k k W0) as [x Ex]; try lia.
    pose proof (mx_get_inv _ _ _ _ Ex) as (_ & _ & E). rewrite C in E.
    replace (k * (n + 1)) with (k * n + k) by lia. unfold rd. rewrite E. simpl.
    rewrite wr_ok by lia. simpl. rewrite C.
    replace (k * n + k + (n + 1)) with (S k * (n + 1)) by lia.
    destruct (IHfuel (S k) (upd k (sq x) v)) as (r & A1 & A2 & A3 & A4); try lia. rewrite upd_length; auto.
    exists r. rewrite A1. repeat split; auto.
    + intros i Hi. rewrite A3 by lia. apply upd_other. lia.
    + intros i Hi. destruct (Nat.eq_dec i k). subst i. exists x. split; auto. rewrite A3 by lia. apply upd_same; lia.
      apply A4; lia.
  - assert (k = n) by (rewrite W in L; nia). subst k.
    exists v. repeat split; auto. intros; lia.
Qed.

Lemma mx_sd_spec (z : T) (sq : T -> T) (a : matrix T) : mwf a ->
  (mrows a <> mcols a -> mx_sd z sq a = Err ErrPlain) /\
  (mrows a = mcols a -> exists r, mx_sd z sq a = Ok r /\ length r = mcols a /\
     forall i, i < mcols a -> exists x, mx_get a i i = Ok x /\ nth_error r i = Some (sq x)).
Proof.
  intros W. unfold mx_sd. destruct (Nat.eqb_spec (mcols a) (mrows a)); simpl negb; cbv iota.
  - split; [congruence|]. intros _.
    destruct (sd_walk_spec sq a (mcols a) W (eq_sym e) eq_refl (S (length (mdata a))) 0 (repeat z (mcols a)))
      as (r & A1 & A2 & A3 & A4); try lia.
    { rewrite W. destruct (mcols a); nia. }
    { apply repeat_length. }
    exists r. repeat split; auto. intros i Hi. apply A4; lia.
  - split; auto. congruence.
Qed.

Lemma ofold_ok {S A} (f : S -> A -> outcome S) (g : S -> A -> S) l s :
  (forall s a, In a l -> f s a = Ok (g s a)) -> ofold f l s = Ok (fold_left g l s).
Proof.
  revert s; induction l; simpl; intros; auto. rewrite H by auto. simpl. apply IHl. auto.
Qed.

(** entry with a default, only for statements about indices in range *)
Definition ent (z : T) (a : matrix T) (i j : nat) : T :=
  match mx_get a i j with Ok v => v | _ => z end.

Lemma mx_mul_spec (z : T) add mul (a b : matrix T) : mwf a -> mwf b ->
  (mcols a <> mrows b -> mx_mul z add mul a b = Err ErrPlain) /\
  (mcols a = mrows b -> exists c, mx_mul z add mul a b = Ok c /\ mwf c /\
     mrows c = mrows a /\ mcols c = mcols b /\
     forall i j, i < mrows a -> j < mcols b ->
       mx_get c i j = Ok (fold_left (fun s k => add s (mul (ent z a i k) (ent z b k j))) (seq 0 (mcols a)) z)).
Proof.
  intros Wa Wb. unfold mx_mul. destruct (Nat.eqb_spec (mcols a) (mrows b)); simpl negb; cbv iota; [|split; congruence].
  split; [congruence|]. intros _.
  set (dot := fun i j => fold_left (fun s k => add s (mul (ent z a i k) (ent z b k j))) (seq 0 (mcols a)) z).
  assert (DOT : forall i j, i < mrows a -> j < mcols b ->
    ofold (fun c k => obind (mx_get a i k) (fun x => obind (mx_get b k j) (fun y => Ok (add c (mul x y)))))
      (seq 0 (mcols a)) z = Ok (dot i j)).
  { intros i j Hi Hj. apply ofold_ok. intros s k I. apply in_seq in I.
    destruct (mx_get_ok a i k Wa) as [x Ex]; try lia. destruct (mx_get_ok b k j Wb) as [y Ey]; try lia.
    unfold ent. rewrite Ex, Ey. reflexivity. }
  destruct (ofold_writes (fun '(i, j) => i * mcols b + j) (fun '(i, j) => 
     ofold (fun c k => obind (mx_get a i k) (fun x => obind (mx_get b k j) (fun y => Ok (add c (mul x y)))))
      (seq 0 (mcols a)) z) (loop2 (mrows a) (mcols b)) (repeat z (mrows a * mcols b))) as (d & A1 & A2 & A3 & A4).
  { intros [i j] I. apply loop2_in in I. rewrite repeat_length. split; [nia|]. exists (dot i j). apply DOT; lia. }
  { apply nodup_pos; [intros i j I; apply loop2_in in I; lia | apply loop2_nodup]. }
  match goal with |- exists c, omap _ ?X = _ /\ _ => replace X with (Ok d) end.
  2:{ rewrite <- A1. apply ofold_ext. intros ? [? ?] _. reflexivity. }
  simpl. eexists; split; [reflexivity|]. rewrite repeat_length in A2. unfold mwf; simpl. repeat split; auto.
  intros i j Hi Hj. apply mx_get_nth; simpl; auto. apply (A3 (i, j) (dot i j)). apply loop2_in; auto. apply DOT; auto.
Qed.

End Mx.
