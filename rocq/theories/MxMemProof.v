(** Proofs about the memory of matrix objects. *)
From Coq Require Import List Arith Bool Lia.
From Verif Require Import Base MatrixModel MatrixProof NrProof MxMemModel MxMemSpec.
Import ListNotations.

Section P.
Context {T : Type}.
Variable zero : T.

Definition like (a : matrix T) (t : table T) : Prop :=
  mwf a /\ mrows a = t_rows t /\ mcols a = t_cols t /\ forall i j, i < t_rows t -> j < t_cols t -> mx_get a i j = Ok (t_at t i j).
Definition holds (h : bufs T) (o : mobj) (d : list T) : Prop :=
  o_size o = length d /\ match o_data o with None => d = [] | Some b => nth_error h b = Some (Some d) end.
Definition rel (h : bufs T) (x : option (option mobj)) (y : option (option (table T))) : Prop :=
  match x, y with
  | Some (Some o), Some (Some t) => exists d, holds h o d /\ like (mkMx (o_rows o) (o_cols o) d) t
  | Some None, Some None => True
  | None, None => True
  | _, _ => False
  end.
Record Inv (h : bufs T) (os : list (option mobj)) (A : tables T) : Prop := mkInv {
  i_len : length os = length A;
  i_rel : forall k, rel h (nth_error os k) (nth_error A k);
  i_one : forall k k' o o' b, nth_error os k = Some (Some o) -> nth_error os k' = Some (Some o') -> o_data o = Some b -> o_data o' = Some b -> k = k';
  i_own : forall b d, nth_error h b = Some (Some d) -> exists k o, nth_error os k = Some (Some o) /\ o_data o = Some b }.

Lemma upd_at {A} n k (x : A) l : nth_error (upd n x l) k = if k =? n then match nth_error l n with Some _ => Some x | None => None end else nth_error l k.
Proof.
  destruct (Nat.eqb_spec k n) as [->|N]. 2: apply upd_other; auto. destruct (nth_error l n) eqn:E.
  apply upd_same. apply nth_error_Some. congruence. apply nth_error_None. rewrite upd_len. apply nth_error_None. auto.
Qed.
Lemma app_at {A} k (x : A) l : nth_error (l ++ [x]) k = if k =? length l then Some x else nth_error l k.
Proof.
  destruct (Nat.eqb_spec k (length l)) as [->|N]. apply nth_last. destruct (Nat.lt_ge_cases k (length l)). apply nth_error_app1; auto.
  rewrite nth_error_app2 by lia. transitivity (@None A). apply nth_error_None. cbn. lia. symmetry. apply nth_error_None. lia.
Qed.

Lemma upd_id {A} (l : list A) : forall n x, nth_error l n = Some x -> upd n x l = l.
Proof. induction l; intros [|n] x H; cbn in *; try discriminate. congruence. rewrite IHl; auto. Qed.

Lemma inv_obj h os A k t : Inv h os A -> val A k = Some t -> exists o d, nth_error os k = Some (Some o) /\ holds h o d /\ like (mkMx (o_rows o) (o_cols o) d) t.
Proof.
  intros I V. unfold val in V. pose proof (i_rel _ _ _ I k) as R. destruct (nth_error A k) as [[a|]|]; try discriminate. injection V as ->.
  destruct (nth_error os k) as [[o|]|]; cbn in R; try contradiction. destruct R as (d & H & L). eauto.
Qed.
Lemma inv_slot h os A : Inv h os A -> Inv h (os ++ [None]) (A ++ [None]).
Proof.
  intros [L R O W]. split.
  - rewrite !app_length, L. reflexivity.
  - intros k. rewrite !app_at, L. destruct (k =? length A); cbn; auto.
  - intros k k' o o' b. rewrite !app_at. destruct (k =? _), (k' =? _); try discriminate. apply O.
  - intros b d B. destruct (W b d B) as (k & o & E & D). exists k, o. split; auto. rewrite nth_error_app1; auto. apply nth_error_Some. congruence.
Qed.

Lemma inv_free h os A k o : Inv h os A -> nth_error os k = Some (Some o) -> exists h', del h (o_data o) = Ok h' /\ length h' = length h /\
  Inv h' (upd k None os) (upd k None A) /\ forall x, del (h ++ [x]) (o_data o) = Ok (h' ++ [x]).
Proof.
  intros I E. pose proof (i_rel _ _ _ I k) as R. rewrite E in R. destruct (nth_error A k) as [[t|]|] eqn:EA; cbn in R; try contradiction. destruct R as (d & [S D] & L).
  assert (KL : k < length os) by (apply nth_error_Some; congruence).
  assert (exists h', del h (o_data o) = Ok h' /\ length h' = length h /\ (forall x, del (h ++ [x]) (o_data o) = Ok (h' ++ [x])) /\
    (forall b, o_data o <> Some b -> nth_error h' b = nth_error h b) /\ (forall b, o_data o = Some b -> nth_error h' b = Some None)) as (h' & D' & LH & DX & N1 & N2).
  { destruct (o_data o) as [b|]; cbn.
    - rewrite D. exists (upd b None h). assert (b < length h) by (apply nth_error_Some; congruence). repeat split.
      + apply upd_len.
      + intros x. rewrite nth_error_app1, D by auto. f_equal. clear - H. revert b H. induction h; intros [|b] H; cbn in *; try lia; auto. rewrite IHh; auto. lia.
      + intros b' N. apply upd_other. congruence.
      + intros b' N. injection N as <-. apply upd_same; auto.
    - exists h. repeat split; auto. discriminate. }
  exists h'. split; auto. split; auto. split; auto. destruct I as [IL IR IO IW]. split.
  - rewrite !upd_len. auto.
  - intros k'. rewrite !upd_at, E, EA. destruct (Nat.eqb_spec k' k) as [->|N]; [exact I|].
    specialize (IR k'). destruct (nth_error os k') as [[o'|]|] eqn:E', (nth_error A k') as [[t'|]|]; cbn in *; auto. destruct IR as (d' & [S' D2] & L'). exists d'. split; auto. split; auto.
    destruct (o_data o') as [b|] eqn:OD; auto. rewrite N1; auto. intros Q. apply N. apply (IO _ _ _ _ b E' E); auto.
  - intros k1 k2 o1 o2 b. rewrite !upd_at, E. destruct (k1 =? k); try discriminate. destruct (k2 =? k); try discriminate. apply IO.
  - intros b d' B. assert (NB : o_data o <> Some b) by (intros Q; rewrite (N2 b Q) in B; discriminate). rewrite N1 in B by auto. destruct (IW b d' B) as (k1 & o1 & E1 & D1).
    exists k1, o1. split; auto. rewrite upd_other; auto. intros ->. congruence.
Qed.

Lemma inv_new h os A k d t r c : Inv h os A -> nth_error os k = Some None -> like (mkMx r c d) t ->
  Inv (h ++ [Some d]) (upd k (Some (mkMo (Some (length h)) r c (length d))) os) (upd k (Some t) A).
Proof.
  intros [IL IR IO IW] E L. assert (EA : nth_error A k = Some None).
  { specialize (IR k). rewrite E in IR. destruct (nth_error A k) as [[?|]|]; cbn in IR; try contradiction; auto. }
  assert (LT : forall k' o b, nth_error os k' = Some (Some o) -> o_data o = Some b -> b < length h).
  { intros k' o b K B. specialize (IR k'). rewrite K in IR. destruct (nth_error A k') as [[?|]|]; cbn in IR; try contradiction. destruct IR as (d' & [_ D] & _). rewrite B in D. apply nth_error_Some. congruence. }
  split.
  - rewrite !upd_len. auto.
  - intros k'. rewrite !upd_at, E, EA. destruct (Nat.eqb_spec k' k) as [->|N].
    + cbn. exists d. split; auto. split; auto. cbn. apply nth_last.
    + specialize (IR k'). destruct (nth_error os k') as [[o'|]|] eqn:E', (nth_error A k') as [[t'|]|]; cbn in *; auto. destruct IR as (d' & [S' D2] & L'). exists d'. split; auto. split; auto.
      destruct (o_data o') as [b|] eqn:OD; auto. rewrite nth_error_app1; eauto.
  - intros k1 k2 o1 o2 b. rewrite !upd_at, E. destruct (Nat.eqb_spec k1 k), (Nat.eqb_spec k2 k); subst; auto.
    + intros Q E2 B1 B2. injection Q as <-. cbn in B1. injection B1 as <-. apply (LT _ _ _ E2) in B2. lia.
    + intros E1 Q B1 B2. injection Q as <-. cbn in B2. injection B2 as <-. apply (LT _ _ _ E1) in B1. lia.
    + apply IO.
  - intros b d'. rewrite app_at. destruct (Nat.eqb_spec b (length h)) as [->|N]; intros B.
    + eexists k, _. rewrite upd_at, E, Nat.eqb_refl. split. reflexivity. reflexivity.
    + destruct (IW b d' B) as (k1 & o1 & E1 & D1). exists k1, o1. split; auto. rewrite upd_other; auto. intros ->. congruence.
Qed.

Lemma inv_null h os A k t : Inv h os A -> nth_error os k = Some None -> like (mkMx 0 0 []) t ->
  Inv h (upd k (Some (mkMo None 0 0 0)) os) (upd k (Some t) A).
Proof.
  intros [IL IR IO IW] E L. assert (EA : nth_error A k = Some None).
  { specialize (IR k). rewrite E in IR. destruct (nth_error A k) as [[?|]|]; cbn in IR; try contradiction; auto. }
  split.
  - rewrite !upd_len. auto.
  - intros k'. rewrite !upd_at, E, EA. destruct (Nat.eqb_spec k' k) as [->|N]; auto. cbn. exists []. split; auto. split; auto. cbn. auto.
  - intros k1 k2 o1 o2 b. rewrite !upd_at, E. destruct (Nat.eqb_spec k1 k), (Nat.eqb_spec k2 k); subst; auto.
    + intros Q E2 B1 B2. injection Q as <-. discriminate.
    + intros E1 Q B1 B2. injection Q as <-. discriminate.
    + apply IO.
  - intros b d' B. destruct (IW b d' B) as (k1 & o1 & E1 & D1). exists k1, o1. split; auto. rewrite upd_other; auto. intros ->. congruence.
Qed.

Lemma inv_write h os A k o d d' t : Inv h os A -> nth_error os k = Some (Some o) -> holds h o d -> length d' = length d -> like (mkMx (o_rows o) (o_cols o) d') t ->
  exists h', write_n h (o_data o) d' = Ok h' /\ Inv h' os (upd k (Some t) A).
Proof.
  intros I E [S D] LD L. assert (EA : exists t0, nth_error A k = Some (Some t0)).
  { pose proof (i_rel _ _ _ I k) as R. rewrite E in R. destruct (nth_error A k) as [[?|]|]; cbn in R; try contradiction; eauto. }
  destruct EA as [t0 EA]. destruct I as [IL IR IO IW].
  assert (exists h', write_n h (o_data o) d' = Ok h' /\ match o_data o with None => h' = h /\ d' = [] | Some b => h' = upd b (Some d') h end) as (h' & W & H').
  { destruct (o_data o) as [b|]; unfold write_n.
    - destruct d' as [|x d'].
      + exists h. split; [reflexivity|]. destruct d; [|discriminate]. symmetry. apply upd_id; auto.
      + rewrite D. destruct (Nat.leb_spec (length (x :: d')) (length d)); [|lia]. eexists. split. reflexivity. rewrite LD, skipn_all, app_nil_r. reflexivity.
    - subst d. destruct d'; [|discriminate]. exists h. auto. }
  exists h'. split; auto. split.
  - rewrite upd_len. auto.
  - intros k'. rewrite upd_at, EA. destruct (Nat.eqb_spec k' k) as [->|N].
    + rewrite E. cbn. exists d'. split; auto. split. lia. destruct (o_data o) as [b|]. subst h'. apply upd_same. apply nth_error_Some. congruence. tauto.
    + specialize (IR k'). destruct (nth_error os k') as [[o'|]|] eqn:E', (nth_error A k') as [[t'|]|]; cbn in *; auto. destruct IR as (d2 & [S' D2] & L'). exists d2. split; auto. split; auto.
      destruct (o_data o') as [b'|] eqn:OD'; auto. destruct (o_data o) as [b|] eqn:OD; [|destruct H' as [-> _]; auto]. subst h'. rewrite upd_other; auto. intros ->. apply N. apply (IO _ _ _ _ b E' E); auto.
  - exact IO.
  - intros b2 d2 B. destruct (o_data o) as [b|] eqn:OD; [|destruct H' as [-> _]; eauto]. subst h'. rewrite upd_at in B. destruct (Nat.eqb_spec b2 b) as [->|]; eauto.
Qed.

Lemma read_holds h o d : holds h o d -> read_n h (o_data o) (o_size o) = Ok d.
Proof.
  intros [SZ D]. rewrite SZ. destruct (o_data o) as [b|]. 2:{ subst. reflexivity. } destruct d as [|x d]; [reflexivity|]. unfold read_n. cbn [length]. rewrite D.
  destruct (Nat.leb_spec (S (length d)) (length (x :: d))); [|cbn in *; lia]. f_equal. change (S (length d)) with (length (x :: d)). apply firstn_all.
Qed.
Lemma new_exact h n d : length d = n -> new_copy zero h n d = Ok (h ++ [Some d], Some (length h)).
Proof. intros <-. unfold new_copy. rewrite Nat.leb_refl, Nat.sub_diag. cbn [repeat]. rewrite app_nil_r. reflexivity. Qed.
Lemma like_new m n : like (mkMx m n (repeat zero (m * n))) (mkTb m n (fun _ _ => zero)).
Proof.
  split; [|split; [|split]]; auto. unfold mwf. cbn. apply repeat_length. cbn [t_rows t_cols t_at]. intros i j Hi Hj. unfold mx_get. cbn [mrows mcols mdata]. destruct (Nat.ltb_spec i m); [|lia]. destruct (Nat.ltb_spec j n); [|lia]. cbn.
  unfold rd. rewrite nth_error_repeat; auto. clear - Hi Hj. nia.
Qed.
Lemma like_nil f : like (mkMx 0 0 []) (mkTb 0 0 f).
Proof. split; [|split; [|split]]; auto. reflexivity. cbn. lia. Qed.

Lemma push_new h os A d t r c : Inv h os A -> like (mkMx r c d) t -> Inv (h ++ [Some d]) (os ++ [Some (mkMo (Some (length h)) r c (length d))]) (A ++ [Some t]).
Proof.
  intros I L. apply inv_slot in I as J. apply (inv_new _ _ _ (length os) d t r c) in J; auto; [|apply nth_last]. rewrite upd_last in J. rewrite (i_len _ _ _ I), upd_last in J. exact J.
Qed.

Lemma upd_twice {B} n (x y : B) l : upd n x (upd n y l) = upd n x l.
Proof. revert n. induction l; intros [|n]; cbn; auto. rewrite IHl. reflexivity. Qed.

Lemma put_val A k (t : table T) : val A k = Some t -> nth_error A k = Some (Some t).
Proof. unfold val. destruct (nth_error A k) as [[?|]|]; try discriminate. congruence. Qed.

Lemma step_sim h os A op A' : Inv h os A -> tstep zero A op = Some A' -> exists h' os', mstep zero (mkMw h os) op = Ok (mkMw h' os') /\ Inv h' os' A'.
Proof.
  intros I E. destruct op as [|m n|s|k s|k v|k m n v|k|k i j v|k]; cbn [tstep] in E; cbn [mstep w_bufs w_objs]; unfold obj; cbn [w_objs].
  - injection E as <-. eexists _, _. split. reflexivity. apply inv_slot in I as J. apply (inv_null _ _ _ (length os) (mkTb 0 0 (fun _ _ => zero))) in J; [|apply nth_last|apply like_nil].
    rewrite upd_last in J. rewrite (i_len _ _ _ I), upd_last in J. exact J.
  - injection E as <-. rewrite new_exact by apply repeat_length. cbn [obind]. eexists _, _. split. reflexivity.
    pose proof (push_new _ _ _ _ _ _ _ I (like_new m n)) as J. rewrite repeat_length in J. exact J.
  - destruct (val A s) as [t|] eqn:V; [|discriminate]. injection E as <-. destruct (inv_obj _ _ _ _ _ I V) as (o & d & O & H & L). rewrite O. cbn [obind].
    rewrite (read_holds _ _ _ H). cbn [obind]. assert (LD : length d = o_rows o * o_cols o) by (destruct L as (W & _); exact W).
    rewrite new_exact by auto. cbn [obind]. eexists _, _. split. reflexivity. destruct H as [S _]. rewrite S. apply push_new; auto.
  - destruct (val A s) as [t|] eqn:V; [|discriminate]. destruct (val A k) as [t0|] eqn:V0; [|discriminate]. injection E as <-.
    destruct (inv_obj _ _ _ _ _ I V0) as (o & d0 & O & H0 & L0). destruct (inv_obj _ _ _ _ _ I V) as (src & d & O1 & H & L). rewrite O. cbn [obind]. rewrite O1. cbn [obind].
    destruct (Nat.eqb_spec k s) as [->|N].
    + eexists _, _. split. reflexivity. rewrite upd_id; auto. apply put_val; auto.
    + destruct (inv_free _ _ _ _ _ I O) as (h' & D & LH & J & _). rewrite D. cbn [obind].
      assert (V' : val (upd k None A) s = Some t) by (unfold val; rewrite upd_other by auto; exact V).
      destruct (inv_obj _ _ _ _ _ J V') as (src' & d' & O' & H' & L'). rewrite upd_other in O' by auto. rewrite O1 in O'. injection O' as <-.
      rewrite (read_holds _ _ _ H'). cbn [obind]. rewrite new_exact by (symmetry; apply H'). cbn [obind]. eexists _, _. split. reflexivity.
      apply (inv_new _ _ _ k d' t (o_rows src) (o_cols src)) in J; auto. 2:{ rewrite upd_at, Nat.eqb_refl, O. reflexivity. } rewrite !upd_twice in J. destruct H' as [S _]. rewrite S. exact J.
  - destruct (val A k) as [t|] eqn:V; [|discriminate]. injection E as <-. destruct (inv_obj _ _ _ _ _ I V) as (o & d & O & H & L). rewrite O. cbn [obind].
    destruct (inv_write _ _ _ _ _ _ (repeat v (o_size o)) (mkTb (t_rows t) (t_cols t) (fun _ _ => v)) I O H) as (h' & W & J).
    + rewrite repeat_length. apply H.
    + destruct L as (W & R & C & G). cbn in R, C. split; [|split; [|split]]; auto. unfold mwf in *. cbn in *. rewrite repeat_length. destruct H as [-> _]. auto.
      cbn [t_rows t_cols t_at]. intros i j Hi Hj. unfold mx_get. cbn [mrows mcols mdata]. rewrite R, C. destruct (Nat.ltb_spec i (t_rows t)); [|lia]. destruct (Nat.ltb_spec j (t_cols t)); [|lia]. cbn. unfold rd. rewrite nth_error_repeat; auto.
      destruct H as [-> _]. unfold mwf in W. cbn in W. rewrite W, R, C. nia.
    + rewrite W. cbn [obind]. eexists _, _. split. reflexivity. exact J.
  - destruct (val A k) as [t|] eqn:V; [|discriminate]. injection E as <-. destruct (inv_obj _ _ _ _ _ I V) as (o & d & O & H & L). rewrite O. cbn [obind].
    destruct L as (W & R & C & G). cbn in R, C.
    destruct ((m =? o_rows o) && (n =? o_cols o)) eqn:B.
    + apply andb_true_iff in B. destruct B as [B1 B2]. apply Nat.eqb_eq in B1, B2. eexists _, _. split. reflexivity.
      destruct I as [IL IR IO IW]. split; auto. rewrite upd_len; auto. intros k'. rewrite upd_at, (put_val _ _ _ V). destruct (Nat.eqb_spec k' k) as [->|]; auto.
      rewrite O. cbn [rel]. exists d. split; auto. split; [|split; [|split]]; auto; cbn [t_rows t_cols t_at mrows mcols]; try congruence. intros i j Hi Hj.
      destruct (Nat.ltb_spec i (t_rows t)); [|lia]. destruct (Nat.ltb_spec j (t_cols t)); [|lia]. cbn. apply G; auto.
    + rewrite (read_holds _ _ _ H). cbn [obind]. destruct (mx_resize_spec v (mkMx (o_rows o) (o_cols o) d) m n W) as (a & Ea & Wa & Ra & Ca & Ga). rewrite Ea. cbn [obind].
      assert (LA : length (mdata a) = m * n) by (unfold mwf in Wa; rewrite Wa, Ra, Ca; reflexivity). rewrite new_exact by auto. cbn [obind].
      destruct (inv_free _ _ _ _ _ I O) as (h' & D & LH & J & DX). rewrite DX. cbn [obind]. eexists _, _. split. reflexivity.
      apply (inv_new _ _ _ k (mdata a) (mkTb m n (fun i j => if (i <? t_rows t) && (j <? t_cols t) then t_at t i j else v)) m n) in J.
      * rewrite !upd_twice, LH, LA in J. exact J.
      * rewrite upd_at, Nat.eqb_refl, O. reflexivity.
      * split; [|split; [|split]]; auto. cbn [t_rows t_cols t_at]. intros i j Hi Hj. assert (GG : mx_get (mkMx m n (mdata a)) i j = mx_get a i j) by (unfold mx_get; cbn; rewrite Ra, Ca; reflexivity).
        rewrite GG, Ga by auto. cbn [mrows mcols]. rewrite R, C. destruct (Nat.ltb_spec i (t_rows t)), (Nat.ltb_spec j (t_cols t)); cbn; auto. rewrite <- R, <- C. apply G; auto.
  - destruct (val A k) as [t|] eqn:V; [|discriminate]. injection E as <-. destruct (inv_obj _ _ _ _ _ I V) as (o & d & O & H & L). rewrite O. cbn [obind].
    destruct (inv_free _ _ _ _ _ I O) as (h' & D & LH & J & _). rewrite D. cbn [obind]. eexists _, _. split. reflexivity.
    apply (inv_null _ _ _ k (mkTb 0 0 (fun _ _ => zero))) in J; [|rewrite upd_at, Nat.eqb_refl, O; reflexivity|apply like_nil]. rewrite !upd_twice in J. exact J.
  - destruct (val A k) as [t|] eqn:V; [|discriminate]. destruct ((i <? t_rows t) && (j <? t_cols t)) eqn:B; [|discriminate]. injection E as <-. apply andb_true_iff in B. destruct B as [B1 B2]. apply Nat.ltb_lt in B1, B2.
    destruct (inv_obj _ _ _ _ _ I V) as (o & d & O & H & L). rewrite O. cbn [obind]. rewrite (read_holds _ _ _ H). cbn [obind]. destruct L as (W & R & C & G). cbn in R, C.
    destruct (mx_set_spec (mkMx (o_rows o) (o_cols o) d) i j v W) as (a & Ea & Wa & Ra & Ca & G1 & G2); cbn [mrows mcols]; try lia. rewrite Ea. cbn [obind]. cbn in Ra, Ca.
    destruct (inv_write _ _ _ _ _ _ (mdata a) (mkTb (t_rows t) (t_cols t) (fun i' j' => if (i' =? i) && (j' =? j) then v else t_at t i' j')) I O H) as (h' & X & J).
    + unfold mwf in *. cbn in W. rewrite Wa, W, Ra, Ca. reflexivity.
    + assert (GG : forall i' j', mx_get (mkMx (o_rows o) (o_cols o) (mdata a)) i' j' = mx_get a i' j') by (intros; unfold mx_get; cbn; rewrite Ra, Ca; reflexivity).
      split; [|split; [|split]]; auto. unfold mwf in *. cbn. rewrite Wa, Ra, Ca. reflexivity. cbn [t_rows t_cols t_at]. intros i' j' Hi Hj. rewrite GG.
      destruct (Nat.eqb_spec i' i) as [->|]; [destruct (Nat.eqb_spec j' j) as [->|]|]; cbn; auto; rewrite G2 by congruence; apply G; auto.
    + rewrite X. cbn [obind]. eexists _, _. split. reflexivity. exact J.
  - destruct (val A k) as [t|] eqn:V; [|discriminate]. injection E as <-. destruct (inv_obj _ _ _ _ _ I V) as (o & d & O & H & L). rewrite O. cbn [obind].
    destruct (inv_free _ _ _ _ _ I O) as (h' & D & LH & J & _). rewrite D. cbn [obind]. eexists _, _. split. reflexivity. exact J.
Qed.

Lemma run_sim ops : forall h os A A', Inv h os A -> trun zero A ops = Some A' -> exists h' os', ofold (mstep zero) ops (mkMw h os) = Ok (mkMw h' os') /\ Inv h' os' A'.
Proof.
  induction ops as [|op ops IH]; intros h os A A' I E; cbn in *. injection E as <-. eauto.
  destruct (tstep zero A op) as [A1|] eqn:S; [|discriminate]. destruct (step_sim _ _ _ _ _ I S) as (h1 & os1 & E1 & I1). rewrite E1. cbn [obind]. apply (IH _ _ _ _ I1 E).
Qed.
Lemma inv_init : Inv [] [] [].
Proof. split; auto. intros [|k]; cbn; auto. intros [|k]; discriminate. intros [|b]; discriminate. Qed.

Lemma values ops A : trun zero [] ops = Some A -> exists w, mrun zero ops = Ok w /\
  forall k t, val A k = Some t -> (exists o, obj w k = Ok o /\ o_rows o = t_rows t /\ o_cols o = t_cols t) /\
    forall i j, i < t_rows t -> j < t_cols t -> mread w k i j = Ok (t_at t i j).
Proof.
  intros E. destruct (run_sim ops _ _ _ _ inv_init E) as (h & os & R & I). exists (mkMw h os). split; auto. intros k t V.
  destruct (inv_obj _ _ _ _ _ I V) as (o & d & O & H & L). destruct L as (W & Rr & C & G). cbn in Rr, C. split.
  - exists o. unfold obj. cbn. rewrite O. auto.
  - intros i j Hi Hj. unfold mread, obj. cbn [w_objs w_bufs]. rewrite O. cbn [obind]. rewrite (read_holds _ _ _ H). cbn [obind]. apply G; auto.
Qed.

Lemma memory ops A w : trun zero [] ops = Some A -> mrun zero ops = Ok w ->
  forall b d, nth_error (w_bufs w) b = Some (Some d) -> exists k t o, val A k = Some t /\ obj w k = Ok o /\ o_data o = Some b /\
    length d = t_rows t * t_cols t /\ forall k' o', obj w k' = Ok o' -> o_data o' = Some b -> k' = k.
Proof.
  intros E M. destruct (run_sim ops _ _ _ _ inv_init E) as (h & os & R & I). unfold mrun in M. rewrite R in M. injection M as <-. cbn [w_bufs]. intros b d B.
  destruct (i_own _ _ _ I b d B) as (k & o & O & D). pose proof (i_rel _ _ _ I k) as RE. rewrite O in RE. destruct (nth_error A k) as [[t|]|] eqn:EA; cbn in RE; try contradiction.
  destruct RE as (d' & [S H] & (W & Rr & C & G)). rewrite D, B in H. injection H as <-. exists k, t, o. unfold val, obj. cbn [w_objs]. rewrite EA, O. repeat split; auto.
  - unfold mwf in W. cbn in *. rewrite W, Rr, C. reflexivity.
  - intros k' o'. destruct (nth_error os k') as [[o2|]|] eqn:E2; intros Q; try discriminate. injection Q as <-. intros D2. apply (i_one _ _ _ I _ _ _ _ b E2 O D2 D).
Qed.

Lemma no_leak ops A w : trun zero [] ops = Some A -> mrun zero ops = Ok w -> (forall k, val A k = None) -> forall b x, nth_error (w_bufs w) b = Some x -> x = None.
Proof.
  intros E M N b [d|] B; auto. destruct (memory ops A w E M b d B) as (k & t & o & V & _). rewrite N in V. discriminate.
Qed.
End P.
