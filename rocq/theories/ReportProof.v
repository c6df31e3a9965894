(** Proofs about the parameter part of the results text. *)
From Coq Require Import Ascii String List Arith ZArith Reals Bool Lia Lra Permutation Sorted.
From Verif Require Import Base ParamModel ParamSpec ParamProof OrderModel OrderProof MatrixModel ParserModel DataModel FmtModel ScatModel SaveModel ReportModel ReportSpec.
Import ListNotations.

Lemma rd_some {A} (l : list A) i x : nth_error l i = Some x -> rd l i = Ok x.
Proof. intros E. unfold rd. rewrite E. auto. Qed.
Lemma nth_ex {A} (l : list A) i : (i < length l)%nat -> exists x, nth_error l i = Some x.
Proof. intros H. apply nth_error_Some in H. destruct (nth_error l i); eauto. contradiction. Qed.
Lemma nth_lt {A} (l : list A) i x : nth_error l i = Some x -> (i < length l)%nat.
Proof. intros H. apply nth_error_Some. congruence. Qed.

Section S.
Context {T : Type}.
Variable h : list (pop T).
Variable f : fitdata T.
Hypothesis HT : fd_tab f = prun ptab_init h.
Hypothesis HS : sized f.
Let t := fd_tab f.
Let n := length (pid t).

Lemma wf_t : length (pval t) = n /\ length (pfree t) = n /\ NoDup (pid t).
Proof. unfold n, t. rewrite HT. destruct (wf_run h) as (A & B & C). repeat split; auto; congruence. Qed.

Lemma entry_get i j : (i < n)%nat -> (j < n)%nat -> exists c, entry (fd_cov f) i j = Some c /\ mx_get (fd_cov f) i j = Ok c.
Proof.
  intros I J. destruct HS as (_ & R1 & C1 & L1). fold t n in R1, C1, L1.
  destruct (nth_ex (mdata (fd_cov f)) (i * mcols (fd_cov f) + j)) as [c E]. rewrite L1, C1. nia.
  exists c. split. exact E. unfold mx_get. rewrite R1, C1 in *. apply Nat.ltb_lt in I, J. rewrite I, J. cbn [andb].
  apply rd_some. exact E.
Qed.

(** one line of the parameters *)
Definition par_at (i : nat) (x : Z * T * xdbl) : Prop :=
  let '(a, v, d) := x in
  nth_error (pid t) i = Some a /\ nth_error (pval t) i = Some v /\
  (nth_error (pfree t) i = Some true /\ nth_error (fd_dp f) i = Some d \/ nth_error (pfree t) i = Some false /\ d = Fin d_zero).
Lemma par_item_at i : (i < n)%nat -> exists x, par_item f i = Ok x /\ par_at i x.
Proof.
  intros I. destruct wf_t as (LV & LF & _). destruct HS as (LD & _). fold t n in LD.
  destruct (nth_ex (pid t) i I) as [a A]. destruct (nth_ex (pval t) i) as [v V]. lia.
  destruct (nth_ex (pfree t) i) as [b B]. lia. destruct (nth_ex (fd_dp f) i) as [d D]. lia.
  unfold par_item. fold t. rewrite (rd_some _ _ _ A), (rd_some _ _ _ V), (rd_some _ _ _ B), (rd_some _ _ _ D). cbn [obind].
  destruct b; cbn [obind]; eexists; (split; [reflexivity|]); repeat split; auto.
Qed.
Lemma par_items_at o : Forall (fun i => (i < n)%nat) o -> exists xs, par_items f o = Ok xs /\ Forall2 par_at o xs.
Proof.
  induction 1 as [|i o I F (xs & E & F2)]. exists []; split; constructor.
  destruct (par_item_at i I) as (x & X & P). exists (x :: xs). cbn [par_items]. rewrite X, E. split; auto.
Qed.

(** one correlation *)
Definition free_at (i : nat) : Prop := nth_error (pfree t) i = Some true.
Definition corr_at (i j : nat) (y : Z * Z * xdbl) : Prop :=
  let '(a, b, c) := y in
  free_at i /\ free_at j /\ nth_error (pid t) i = Some a /\ nth_error (pid t) j = Some b /\
  exists m di dj, entry (fd_cov f) i j = Some m /\ nth_error (fd_dp f) i = Some di /\ nth_error (fd_dp f) j = Some dj /\
    c = x_div (x_div m di) dj /\ x_big c = true.
Lemma corr_at_fun i j y y' : corr_at i j y -> corr_at i j y' -> y = y'.
Proof.
  destruct y as [[a b] c], y' as [[a' b'] c']. intros (_ & _ & A & B & m & di & dj & M & D1 & D2 & -> & _) (_ & _ & A' & B' & m' & di' & dj' & M' & D1' & D2' & -> & _). congruence.
Qed.
Lemma corr_row_at i js : (i < n)%nat -> free_at i -> Forall (fun j => (j < n)%nat) js ->
  exists ys, corr_row f i js = Ok ys /\ (forall y, In y ys <-> exists j, In j js /\ corr_at i j y) /\ (NoDup js -> NoDup ys).
Proof.
  intros I FI. induction 1 as [|j js J F (ys & E & IN & ND)].
  - exists []. split; auto. split. split; [intros []|intros (j & [] & _)]. constructor.
  - destruct wf_t as (LV & LF & NDI). destruct HS as (LD & _). fold t n in LD.
    destruct (nth_ex (pid t) i I) as [a A]. destruct (nth_ex (pid t) j J) as [b B]. destruct (nth_ex (pfree t) j) as [fr FJ]. lia.
    destruct (nth_ex (fd_dp f) i) as [di DI]. lia. destruct (nth_ex (fd_dp f) j) as [dj DJ]. lia.
    destruct (entry_get i j I J) as (m & M & G).
    cbn [corr_row]. fold t. rewrite (rd_some _ _ _ FJ), G, (rd_some _ _ _ DI), (rd_some _ _ _ DJ), (rd_some _ _ _ A), (rd_some _ _ _ B), E. cbn [obind].
    assert (SKIP : (forall y, corr_at i j y -> False) -> exists ys0, Ok ys = Ok ys0 /\ (forall y, In y ys0 <-> exists j0, In j0 (j :: js) /\ corr_at i j0 y) /\ (NoDup (j :: js) -> NoDup ys0)).
    { intros NO. exists ys. split; auto. split. 2: intros N; inversion N; auto.
      intros y. rewrite IN. split. intros (j0 & J0 & C0). exists j0. split; auto. right; auto.
      intros (j0 & [<- | J0] & C0). destruct (NO _ C0). eauto. }
    destruct fr.
    + destruct (x_big (x_div (x_div m di) dj)) eqn:BG.
      * cbn [obind omap]. eexists. split; [reflexivity|].
        assert (C : corr_at i j (a, b, x_div (x_div m di) dj)). { repeat split; auto. exists m, di, dj. auto. }
        split.
        -- intros y. cbn [In]. rewrite IN. split.
           ++ intros [<- | (j0 & J0 & C0)]. exists j; auto. exists j0; auto.
           ++ intros (j0 & [<- | J0] & C0). left. eapply corr_at_fun; eauto. right; eauto.
        -- intros N. inversion N as [|? ? NI N']; subst. constructor; auto. rewrite IN. intros (j0 & J0 & C0).
           destruct C as (_ & _ & _ & B1 & _). destruct C0 as (_ & _ & _ & B2 & _).
           assert (j = j0). { apply (proj1 (NoDup_nth_error _) NDI); auto. congruence. } subst j0. auto.
      * apply SKIP. intros [[a' b'] c'] (_ & _ & _ & _ & m' & di' & dj' & M' & D1 & D2 & -> & BG'). congruence.
    + apply SKIP. intros [[a' b'] c'] (_ & FJ' & _). unfold free_at in FJ'. congruence.
Qed.

(** i stands before j in the list *)
Definition before (o : list nat) (i j : nat) : Prop := exists k l, (k < l)%nat /\ nth_error o k = Some i /\ nth_error o l = Some j.
Lemma before_cons i o i0 j : before (i :: o) i0 j <-> (i0 = i /\ In j o) \/ before o i0 j.
Proof.
  split.
  - intros (k & l & KL & K & L). destruct l as [|l]; [lia|]. cbn in L. destruct k as [|k]; cbn in K.
    + left. split. congruence. eapply nth_error_In; eauto.
    + right. exists k, l. repeat split; auto. lia.
  - intros [[-> J]|(k & l & KL & K & L)].
    + apply In_nth_error in J as [l L]. exists 0%nat, (S l). repeat split; auto. lia.
    + exists (S k), (S l). repeat split; auto. lia.
Qed.
Lemma corr_rows_at o : Forall (fun j => (j < n)%nat) o -> NoDup o ->
  exists ys, corr_rows f o = Ok ys /\ (forall y, In y ys <-> exists i j, before o i j /\ corr_at i j y) /\ NoDup ys.
Proof.
  induction 1 as [|i o I F IH]; intros N.
  - exists []. split; auto. split. split; [intros []|intros (i & j & (k & l & _ & K & _) & _)]. destruct k; discriminate. constructor.
  - inversion N as [|? ? NI N']; subst. destruct (IH N') as (ys & E & IN & ND).
    destruct wf_t as (LV & LF & NDI). destruct (nth_ex (pfree t) i) as [fr FI]. lia.
    cbn [corr_rows]. fold t. rewrite (rd_some _ _ _ FI), E. cbn [obind]. destruct fr.
    + destruct (corr_row_at i o I FI F) as (xs & X & INX & NDX). rewrite X. cbn [obind omap]. eexists. split; [reflexivity|]. split.
      * intros y. rewrite in_app_iff, INX, IN. split.
        -- intros [(j & J & C)|(i0 & j & B & C)]. exists i, j. split; auto. apply before_cons; auto. exists i0, j. split; auto. apply before_cons; auto.
        -- intros (i0 & j & B & C). apply before_cons in B as [[-> J]|B]. left; eauto. right; eauto.
      * specialize (NDX N'). clear IH E X. assert (DIS : forall y, In y xs -> ~ In y ys).
        { intros [[a b] c] X Y. apply INX in X as (j & J & C). apply IN in Y as (i0 & j0 & B & C0).
          destruct C as (_ & _ & A1 & _). destruct C0 as (_ & _ & A2 & _).
          assert (i = i0). { apply (proj1 (NoDup_nth_error _) NDI); auto. congruence. } subst i0.
          destruct B as (k & l & _ & K & _). apply nth_error_In in K. auto. }
        clear INX IN. induction NDX as [|x xs NX NDX IHX]; cbn [app]; auto. constructor.
        rewrite in_app_iff. intros [Q|Q]; auto. apply (DIS x); auto. left; auto. apply IHX. intros y Y. apply DIS. right; auto.
    + exists ys. split; auto. split; auto. intros y. rewrite IN. split; intros (i0 & j & B & C); exists i0, j; split; auto.
      apply before_cons; auto. apply before_cons in B as [[-> J]|B]; auto. destruct y as [[a b] c]. destruct C as (FI' & _). unfold free_at in FI'. congruence.
Qed.

Lemma order_ok : Forall (fun i => (i < n)%nat) (order_by_id t) /\ NoDup (order_by_id t).
Proof.
  pose proof (order_permutation t) as P. split.
  - apply Forall_forall. intros i I. apply (Permutation_in _ (Permutation_sym P)) in I. apply in_seq in I. unfold n. lia.
  - eapply Permutation_NoDup. exact P. apply seq_NoDup.
Qed.
Lemma order_in i : (i < n)%nat -> In i (order_by_id t).
Proof. intros I. apply (Permutation_in _ (order_permutation t)). apply in_seq. unfold n in I. lia. Qed.
Lemma before_ids i j a b : nth_error (pid t) i = Some a -> nth_error (pid t) j = Some b ->
  (before (order_by_id t) i j <-> (a < b)%Z).
Proof.
  intros A B. pose proof (order_spec h) as (_ & SP). rewrite <- HT in SP. fold t in SP. split.
  - intros (k & l & KL & K & L). exact (SP k l i j a b KL K L A B).
  - intros AB. destruct (In_nth_error _ _ (order_in i (nth_lt _ _ _ A))) as [k K]. destruct (In_nth_error _ _ (order_in j (nth_lt _ _ _ B))) as [l L].
    destruct (lt_eq_lt_dec k l) as [[KL|KL]|KL].
    + exists k, l; auto.
    + subst l. assert (i = j) by congruence. subst j. assert (a = b) by congruence. lia.
    + pose proof (SP l k j i b a KL L K B A). lia.
Qed.

Lemma body_ok : exists ps cs, par_items f (order_by_id t) = Ok ps /\ corr_rows f (order_by_id t) = Ok cs /\
  Forall2 par_at (order_by_id t) ps /\
  (forall a b c, In (a, b, c) cs <-> (a < b)%Z /\ exists i j, corr_at i j (a, b, c)) /\ NoDup cs.
Proof.
  destruct order_ok as [F N]. destruct (par_items_at _ F) as (ps & P & F2). destruct (corr_rows_at _ F N) as (cs & C & IN & ND).
  exists ps, cs. split; auto. split; auto. split; auto. split; auto.
  intros a b c. rewrite IN. split.
  - intros (i & j & B & CA). pose proof CA as (_ & _ & A1 & A2 & _). split. apply (before_ids i j a b A1 A2); auto. exists i, j; auto.
  - intros (AB & i & j & CA). pose proof CA as (_ & _ & A1 & A2 & _). exists i, j. split; auto. apply (before_ids i j a b A1 A2); auto.
Qed.

(** ids, values and flags *)
Lemma pos_val i a v : nth_error (pid t) i = Some a -> (nth_error (pval t) i = Some v <-> last_set a (rev h) = Some v).
Proof.
  intros A. rewrite <- (aval_run h a). unfold aval. rewrite <- HT. fold t.
  destruct wf_t as (_ & _ & ND). assert (E : find_pos a (pid t) = Some i).
  { destruct (find_pos a (pid t)) as [k|] eqn:E. apply find_pos_nth in E. f_equal. apply (proj1 (NoDup_nth_error _) ND). eapply nth_lt; eauto. congruence.
    apply find_pos_none in E. destruct E. eapply nth_error_In; eauto. }
  rewrite E. tauto.
Qed.
Lemma pos_flag i a b : nth_error (pid t) i = Some a -> (nth_error (pfree t) i = Some b <-> flag_of a (rev h) = Some b).
Proof.
  intros A. rewrite <- (aflag_run h a). unfold aflag. rewrite <- HT. fold t.
  destruct wf_t as (_ & _ & ND). assert (E : find_pos a (pid t) = Some i).
  { destruct (find_pos a (pid t)) as [k|] eqn:E. apply find_pos_nth in E. f_equal. apply (proj1 (NoDup_nth_error _) ND). eapply nth_lt; eauto. congruence.
    apply find_pos_none in E. destruct E. eapply nth_error_In; eauto. }
  rewrite E. tauto.
Qed.
Lemma known_pos a : flag_of a (rev h) <> None -> exists i, nth_error (pid t) i = Some a.
Proof.
  rewrite <- (aflag_run h a). unfold aflag. rewrite <- HT. fold t. destruct (find_pos a (pid t)) as [i|] eqn:E; [|tauto].
  intros _. exists i. apply find_pos_nth; auto.
Qed.
End S.
