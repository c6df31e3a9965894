(** Proofs about the changing table of elements. *)
From Coq Require Import String List Arith Bool Lia.
From Verif Require Import Base NrProof MxMemProof PtModel PtSpec.
Import ListNotations.

Section P.
Context {D : Type}.
Implicit Types (s : ptab D) (a : atype D) (h : list (option (atype D))).

Record G s : Prop := mkG {
  g_nd : NoDup (pt_pairs s);
  g_u1 : forall x y, In x (pt_pairs s) -> In y (pt_pairs s) -> fst x = fst y -> x = y;
  g_u2 : forall x y, In x (pt_pairs s) -> In y (pt_pairs s) -> snd x = snd y -> x = y;
  g_u3 : forall x y, In x (pt_pairs s) -> In y (pt_pairs s) -> fst x <> snd y;
  g_live : forall x, In x (pt_pairs s) -> exists a b, nth_error (pt_heap s) (fst x) = Some (Some a) /\ nth_error (pt_heap s) (snd x) = Some (Some b) /\ a_symbol a = a_symbol b /\ a_name a = a_name b;
  g_own : forall p a, nth_error (pt_heap s) p = Some (Some a) -> exists x, In x (pt_pairs s) /\ (p = fst x \/ p = snd x);
  g_sym : forall k p, In (k, p) (pt_sym s) -> exists b a, In (p, b) (pt_pairs s) /\ nth_error (pt_heap s) p = Some (Some a) /\ called a k;
  g_nam : forall k p, In (k, p) (pt_nam s) -> exists b a, In (p, b) (pt_pairs s) /\ nth_error (pt_heap s) p = Some (Some a) /\ a_name a = k }.

Lemma deref_at h p a : nth_error h p = Some (Some a) <-> deref h p = Ok a.
Proof. unfold deref. destruct (nth_error h p) as [[?|]|]; split; congruence. Qed.
Lemma mfind_in k m p : mfind k m = Some p -> In (k, p) m.
Proof. unfold mfind. destruct (find _ m) as [[k' q]|] eqn:E; [|discriminate]. intros Q. injection Q as <-. apply find_some in E. destruct E as [I E]. cbn in E. apply String.eqb_eq in E. subst. exact I. Qed.
Lemma given_pair s p : G s -> given s p -> exists b a, In (p, b) (pt_pairs s) /\ nth_error (pt_heap s) p = Some (Some a).
Proof.
  intros g (k & [E|E]); apply mfind_in in E. destruct (g_sym _ g _ _ E) as (b & a & H & H' & _); eauto. destruct (g_nam _ g _ _ E) as (b & a & H & H' & _); eauto.
Qed.
Lemma at_app {X} (h l : list X) p x : nth_error h p = Some x -> nth_error (h ++ l) p = Some x.
Proof. intros E. rewrite nth_error_app1; auto. apply nth_error_Some. congruence. Qed.
Lemma pair_lt s x : G s -> In x (pt_pairs s) -> fst x < length (pt_heap s) /\ snd x < length (pt_heap s).
Proof. intros g I. destruct (g_live _ g x I) as (a & b & E1 & E2 & _). split; apply nth_error_Some; congruence. Qed.

Lemma G_add a s : G s -> G (add a s).
Proof.
  intros g. pose proof (fun x => pair_lt s x g) as LT. set (n := length (pt_heap s)) in *.
  assert (N0 : nth_error (pt_heap s ++ [Some a] ++ [Some a]) n = Some (Some a)) by (rewrite nth_error_app2 by (unfold n; lia); unfold n; rewrite Nat.sub_diag; reflexivity).
  assert (N1 : nth_error (pt_heap s ++ [Some a] ++ [Some a]) (S n) = Some (Some a)) by (rewrite nth_error_app2 by (unfold n; lia); unfold n; replace (S (length (pt_heap s)) - length (pt_heap s)) with 1 by lia; reflexivity).
  split; unfold add; cbn [pt_heap pt_pairs pt_sym pt_nam]; fold n.
  - apply NoDup_Add with (a := (S n, n)) (l := pt_pairs s ++ []). apply Add_app. rewrite app_nil_r. split. apply g. intros I. apply LT in I. cbn in I. lia.
  - intros x y I J E. apply in_app_or in I, J. destruct I as [I|[<-|[]]], J as [J|[<-|[]]]; auto. apply (g_u1 _ g); auto. apply LT in I. cbn in E. lia. apply LT in J. cbn in E. lia.
  - intros x y I J E. apply in_app_or in I, J. destruct I as [I|[<-|[]]], J as [J|[<-|[]]]; auto. apply (g_u2 _ g); auto. apply LT in I. cbn in E. lia. apply LT in J. cbn in E. lia.
  - intros x y I J E. apply in_app_or in I, J. destruct I as [I|[<-|[]]], J as [J|[<-|[]]]. apply (g_u3 _ g x y); auto. apply LT in I. cbn in E. lia. apply LT in J. cbn in E. lia. cbn in E. lia.
  - intros x I. apply in_app_or in I. destruct I as [I|[<-|[]]]. destruct (g_live _ g x I) as (a0 & b0 & E1 & E2 & Q). exists a0, b0. split. apply at_app; auto. split; auto. apply at_app; auto.
    exists a, a. cbn. auto.
  - intros p b E. destruct (Nat.lt_ge_cases p n) as [L|L].
    + rewrite nth_error_app1 in E by auto. destruct (g_own _ g _ _ E) as (x & I & Q). exists x. split; auto. apply in_or_app; auto.
    + exists (S n, n). split. apply in_or_app. right. left. auto. cbn. assert (p < n + 2). { replace (n + 2) with (length (pt_heap s ++ [Some a] ++ [Some a])). apply nth_error_Some. congruence. rewrite app_length. reflexivity. } lia.
  - intros k p [E|E]. injection E as <- <-. exists n, a. split. apply in_or_app. right. left. auto. split; auto. left. auto.
    destruct (g_sym _ g _ _ E) as (b & a0 & I & H & C). exists b, a0. split. apply in_or_app; auto. split; auto. apply at_app; auto.
  - intros k p [E|E]. injection E as <- <-. exists n, a. split. apply in_or_app. right. left. auto. split; auto.
    destruct (g_nam _ g _ _ E) as (b & a0 & I & H & C). exists b, a0. split. apply in_or_app; auto. split; auto. apply at_app; auto.
Qed.

Lemma G_alias k of s : G s -> (forall a, a_symbol a = of \/ a_name a = of -> called a k) -> ~ In of ["2-H"%string; "3-H"%string] -> G (alias k of s).
Proof.
  intros g H N. unfold alias. destruct (match mfind of (pt_sym s) with Some p => Some p | None => mfind of (pt_nam s) end) as [p|] eqn:E; auto.
  assert (X : exists b a, In (p, b) (pt_pairs s) /\ nth_error (pt_heap s) p = Some (Some a) /\ called a k).
  { destruct (mfind of (pt_sym s)) as [q|] eqn:F.
    - injection E as ->. apply mfind_in in F. destruct (g_sym _ g _ _ F) as (b & a & I & L & C). exists b, a. split; auto. split; auto. apply H. destruct C as [C|[[C _]|[C _]]]; auto; exfalso; apply N; subst; cbn; auto.
    - apply mfind_in in E. destruct (g_nam _ g _ _ E) as (b & a & I & L & C). exists b, a. auto. }
  destruct g. split; cbn [pt_heap pt_pairs pt_sym pt_nam]; auto. intros k' p' [Q|Q]; auto. injection Q as <- <-. auto.
Qed.
Lemma G_init tbl : G (pt_init tbl).
Proof.
  unfold pt_init. apply G_alias; [apply G_alias|..].
  - assert (A : forall t s, G s -> G (fold_left (fun s a => add a s) t s)). { induction t; cbn; auto. intros s g. apply IHt. apply G_add. auto. }
    apply A. split; cbn; try tauto. constructor. intros [|p] a; discriminate.
  - intros a Q. right. left. auto.
  - cbn. intuition discriminate.
  - intros a Q. right. right. auto.
  - cbn. intuition discriminate.
Qed.

Lemma restore_all l : forall h, (forall x y, In x l -> In y l -> fst x <> snd y) -> (forall x y, In x l -> In y l -> fst x = fst y -> x = y) ->
  (forall x, In x l -> (exists a, nth_error h (fst x) = Some (Some a)) /\ exists b, nth_error h (snd x) = Some (Some b)) ->
  exists h', ofold restore l h = Ok h' /\ (forall x, In x l -> nth_error h' (fst x) = nth_error h (snd x)) /\ (forall q, (forall x, In x l -> q <> fst x) -> nth_error h' q = nth_error h q).
Proof.
  induction l as [|x l IH]; intros h U U1 L. exists h. cbn. split; auto. split; auto. tauto.
  destruct (L x (or_introl eq_refl)) as ((a & Ea) & (b & Eb)). cbn [ofold]. unfold restore at 1. rewrite (proj1 (deref_at _ _ _) Eb), (proj1 (deref_at _ _ _) Ea). cbn [obind].
  assert (XL : fst x < length h) by (apply nth_error_Some; congruence).
  assert (SN : forall y, In y (x :: l) -> nth_error (upd (fst x) (Some b) h) (snd y) = nth_error h (snd y)). { intros y I. apply upd_other. intros Q. apply (U x y); cbn; auto. }
  destruct (IH (upd (fst x) (Some b) h)) as (h' & E & R & O).
  - intros y z I J. apply U; right; auto.
  - intros y z I J. apply U1; right; auto.
  - intros y I. destruct (L y (or_intror I)) as ((a' & E1) & (b' & E2)). split.
    + rewrite upd_at. destruct (fst y =? fst x); eauto. rewrite Ea. eauto.
    + rewrite SN by (right; auto). eauto.
  - exists h'. split; auto. split.
    + intros y I. destruct (in_dec Nat.eq_dec (fst y) (map fst l)) as [J|J].
      * apply in_map_iff in J. destruct J as (z & F & J). assert (z = y) as -> by (apply U1; cbn in *; tauto). rewrite R by auto. apply SN. exact I.
      * destruct I as [<-|I]; [|exfalso; apply J; apply in_map; auto]. rewrite O. rewrite upd_same by auto. auto. intros z I Q. apply J. rewrite Q. apply in_map. auto.
    + intros q N. rewrite O by (intros y I; apply N; right; auto). apply upd_other. apply N. left. auto.
Qed.

Lemma in_pairs_find s p b : G s -> In (p, b) (pt_pairs s) -> find (fun x => Nat.eqb (fst x) p) (pt_pairs s) = Some (p, b).
Proof.
  intros g I. destruct (find _ _) as [x|] eqn:F.
  - apply find_some in F. destruct F as [J E]. apply Nat.eqb_eq in E. f_equal. apply (g_u1 _ g); auto.
  - exfalso. apply (find_none _ _ F) in I. cbn in I. rewrite Nat.eqb_refl in I. discriminate.
Qed.

(** what a step keeps: the default of each element not deleted *)
Definition deflt s p a := exists b, In (p, b) (pt_pairs s) /\ nth_error (pt_heap s) b = Some (Some a).

Lemma step_G s op : G s -> tidy s op -> exists s', pdo s op = Ok s' /\ G s' /\ (forall p a, op <> PDelete p -> deflt s p a -> deflt s' p a).
Proof.
  intros g T. destruct op as [a|p|p| |p a]; unfold pdo, pstep; cbn [tidy] in T.
  - assert (AD : G (add a s) /\ forall p b, deflt s p b -> deflt (add a s) p b).
    { split. apply G_add; auto. intros p b (c & I & E). exists c. unfold add. cbn [pt_heap pt_pairs]. split. apply in_or_app; auto. apply at_app; auto. }
    destruct (mfind (a_symbol a) (pt_sym s)), (mfind (a_name a) (pt_nam s)); eexists; (split; [reflexivity|]); split; auto; try apply (proj1 AD); intros p b _; apply (proj2 AD).
  - destruct (find (fun x => Nat.eqb (fst x) p) (pt_pairs s)) as [x|] eqn:F; [|eexists; split; [reflexivity|]; auto].
    apply find_some in F. destruct F as [I E]. apply Nat.eqb_eq in E. destruct (g_live _ g x I) as (a & b & E1 & E2 & S1 & S2). rewrite E in *.
    assert (PX : x = (p, snd x)) by (destruct x; cbn in *; congruence).
    assert (NE : p <> snd x) by (rewrite <- E; apply (g_u3 _ g); auto).
    unfold pfree. rewrite (proj1 (deref_at _ _ _) E1). cbn [obind].
    assert (E2' : deref (upd p None (pt_heap s)) (snd x) = Ok b) by (apply deref_at; rewrite upd_other; auto). rewrite E2'. cbn [obind].
    destruct (T a (proj1 (deref_at _ _ _) E1)) as [TS TN].
    set (h' := upd (snd x) None (upd p None (pt_heap s))).
    assert (H' : forall q, q <> p -> q <> snd x -> nth_error h' q = nth_error (pt_heap s) q). { intros q N1 N2. unfold h'. rewrite !upd_other; auto. }
    assert (HN : forall q c, nth_error h' q = Some (Some c) -> q <> p /\ q <> snd x).
    { intros q c Q. unfold h' in Q. destruct (Nat.eq_dec q (snd x)) as [->|N2]. rewrite upd_same in Q by (rewrite upd_len; apply nth_error_Some; congruence). discriminate.
      split; auto. intros ->. rewrite upd_other in Q by auto. rewrite upd_same in Q by (apply nth_error_Some; congruence). discriminate. }
    set (ps := filter (fun y => negb (Nat.eqb (fst y) p)) (pt_pairs s)).
    assert (PS : forall y, In y ps <-> In y (pt_pairs s) /\ fst y <> p). { intros y. unfold ps. rewrite filter_In, negb_true_iff, Nat.eqb_neq. tauto. }
    assert (KEEP : forall y, In y ps -> fst y <> p /\ fst y <> snd x /\ snd y <> p /\ snd y <> snd x).
    { intros y J. apply PS in J. destruct J as [J N]. split; auto. split. apply (g_u3 _ g); auto. split. rewrite <- E. intros Q. symmetry in Q. revert Q. apply (g_u3 _ g); auto.
      intros Q. apply N. rewrite (g_u2 _ g y x J I Q). auto. }
    eexists. split. reflexivity. fold h' ps. split.
    + split; cbn [pt_heap pt_pairs pt_sym pt_nam].
      * apply NoDup_filter. apply g.
      * intros y z J K. apply PS in J, K. apply (g_u1 _ g); tauto.
      * intros y z J K. apply PS in J, K. apply (g_u2 _ g); tauto.
      * intros y z J K. apply PS in J, K. apply (g_u3 _ g); tauto.
      * intros y J. destruct (KEEP y J) as (K1 & K2 & K3 & K4). apply PS in J. rewrite !H' by auto. apply (g_live _ g). tauto.
      * intros q c Q. destruct (HN q c Q) as [N1 N2]. rewrite H' in Q by auto. destruct (g_own _ g _ _ Q) as (y & J & W). exists y. split; auto. apply PS. split; auto.
        intros Z. assert (y = x) as -> by (apply (g_u1 _ g); congruence). destruct W; congruence.
      * intros k q J. unfold merase in J. apply filter_In in J. destruct J as [J N]. cbn in N. apply negb_true_iff, String.eqb_neq in N. destruct (g_sym _ g _ _ J) as (c & d & K & L & C). exists c, d.
        assert (q <> p). { intros ->. rewrite E1 in L. injection L as <-. cbn in TS, TN. destruct C as [C|[[_ [C|C]]|[_ [C|C]]]]; [congruence|..]; rewrite C in *; tauto. }
        assert (K' : In (q, c) ps) by (apply PS; auto). destruct (KEEP _ K') as (_ & K2 & _). cbn in K2. rewrite H' by auto. auto.
      * intros k q J. unfold merase in J. apply filter_In in J. destruct J as [J N]. cbn in N. apply negb_true_iff, String.eqb_neq in N. destruct (g_nam _ g _ _ J) as (c & d & K & L & C). exists c, d.
        assert (q <> p) by (intros ->; congruence).
        assert (K' : In (q, c) ps) by (apply PS; auto). destruct (KEEP _ K') as (_ & K2 & _). cbn in K2. rewrite H' by auto. auto.
    + intros q c NQ (d & J & L). assert (J' : In (q, d) ps) by (apply PS; split; auto; cbn; congruence). exists d. cbn [pt_heap pt_pairs]. split; auto. destruct (KEEP _ J') as (_ & _ & K3 & K4). rewrite H'; auto.
  - destruct (given_pair s p g T) as (b & a & I & _). destruct (existsb (fun x => Nat.eqb (snd x) p) (pt_pairs s)) eqn:X; [|eexists; split; [reflexivity|]; auto].
    apply existsb_exists in X. destruct X as (y & J & Q). apply Nat.eqb_eq in Q. exfalso. apply (g_u3 _ g (p, b) y); auto.
  - destruct (restore_all (pt_pairs s) (pt_heap s)) as (h' & E & R & O).
    + intros x y. apply g.
    + intros x y. apply g.
    + intros x I. destruct (g_live _ g x I) as (a & b & E1 & E2 & _). eauto.
    + rewrite E. cbn [obind]. eexists. split. reflexivity.
      assert (SN : forall y, In y (pt_pairs s) -> nth_error h' (snd y) = nth_error (pt_heap s) (snd y)). { intros y I. apply O. intros x J Q. symmetry in Q. revert Q. apply (g_u3 _ g); auto. }
      assert (SAME : forall p b a, In (p, b) (pt_pairs s) -> nth_error (pt_heap s) p = Some (Some a) -> exists a', nth_error h' p = Some (Some a') /\ a_symbol a' = a_symbol a /\ a_name a' = a_name a).
      { intros p b a I L. destruct (g_live _ g _ I) as (a1 & b1 & E1 & E2 & S1 & S2). cbn in E1, E2. rewrite L in E1. injection E1 as <-. exists b1. pose proof (R _ I) as Q. cbn in Q. rewrite Q. auto. }
      split.
      * split; cbn [pt_heap pt_pairs pt_sym pt_nam]; try apply g.
        -- intros x I. destruct (g_live _ g _ I) as (a1 & b1 & E1 & E2 & S1 & S2). exists b1, b1. rewrite R, SN by auto. auto.
        -- intros p a Q. destruct (in_dec Nat.eq_dec p (map fst (pt_pairs s))) as [J|J]. apply in_map_iff in J. destruct J as (x & F & J). exists x. auto.
           rewrite O in Q. apply (g_own _ g _ _ Q). intros x I W. apply J. rewrite W. apply in_map. auto.
        -- intros k p J. destruct (g_sym _ g _ _ J) as (b & a & I & L & C). destruct (SAME _ _ _ I L) as (a' & L' & S1 & S2). exists b, a'. split; auto. split; auto. unfold called in *. rewrite S1, S2. auto.
        -- intros k p J. destruct (g_nam _ g _ _ J) as (b & a & I & L & C). destruct (SAME _ _ _ I L) as (a' & L' & S1 & S2). exists b, a'. split; auto. split; auto. congruence.
      * intros p a _ (b & I & L). exists b. cbn [pt_heap pt_pairs]. split; auto. rewrite <- L. apply (SN _ I).
  - destruct T as [T1 T2]. destruct (given_pair s p g T1) as (b & c & I & L). rewrite (proj1 (deref_at _ _ _) L). cbn [obind]. destruct (T2 c (proj1 (deref_at _ _ _) L)) as [S1 S2].
    assert (SN : forall y, In y (pt_pairs s) -> nth_error (upd p (Some a) (pt_heap s)) (snd y) = nth_error (pt_heap s) (snd y)). { intros y J. apply upd_other. intros Q. apply (g_u3 _ g (p, b) y); auto. }
    assert (SAME : forall q d, nth_error (pt_heap s) q = Some (Some d) -> exists a', nth_error (upd p (Some a) (pt_heap s)) q = Some (Some a') /\ a_symbol a' = a_symbol d /\ a_name a' = a_name d).
    { intros q d Q. rewrite upd_at. destruct (Nat.eqb_spec q p) as [->|]; eauto. rewrite L in *. injection Q as <-. eauto. }
    eexists. split. reflexivity. split.
    + split; cbn [pt_heap pt_pairs pt_sym pt_nam]; try apply g.
      * intros x J. destruct (g_live _ g _ J) as (a1 & b1 & E1 & E2 & R1 & R2). destruct (SAME _ _ E1) as (a' & E' & R3 & R4). exists a', b1. rewrite SN by auto. repeat split; auto; congruence.
      * intros q d Q. rewrite upd_at in Q. destruct (Nat.eqb_spec q p) as [->|]. apply (g_own _ g _ _ L). apply (g_own _ g _ _ Q).
      * intros k q J. destruct (g_sym _ g _ _ J) as (b' & a1 & I' & L' & C). destruct (SAME _ _ L') as (a' & E' & R1 & R2). exists b', a'. split; auto. split; auto. unfold called in *. rewrite R1, R2. auto.
      * intros k q J. destruct (g_nam _ g _ _ J) as (b' & a1 & I' & L' & C). destruct (SAME _ _ L') as (a' & E' & R1 & R2). exists b', a'. split; auto. split; auto. congruence.
    + intros q d _ (b' & J & Q). exists b'. cbn [pt_heap pt_pairs]. split; auto. rewrite <- Q. apply (SN _ J).
Qed.

Lemma run_G ops : forall s, G s -> tidy_run s ops -> exists s', prun s ops = Ok s' /\ G s' /\ forall p a, ~ In (PDelete p) ops -> deflt s p a -> deflt s' p a.
Proof.
  induction ops as [|op ops IH]; intros s g T. exists s. cbn. auto. destruct T as [T1 T2]. destruct (step_G s op g T1) as (s1 & E & g1 & K1). rewrite E in T2. destruct (IH s1 g1 T2) as (s' & E' & g' & K').
  exists s'. unfold prun in *. cbn [ofold]. rewrite E. cbn [obind]. split; auto. split; auto. intros p a N H. apply K'. intros I. apply N. right; auto. apply K1; auto. intros ->. apply N. left; auto.
Qed.

Lemma safe tbl ops : tidy_run (pt_init tbl) ops -> exists s, prun (pt_init tbl) ops = Ok s /\
  (forall k p, pt_symbol s k = Some p -> exists a, deref (pt_heap s) p = Ok a /\ called a k) /\
  (forall k p, pt_name s k = Some p -> exists a, deref (pt_heap s) p = Ok a /\ a_name a = k).
Proof.
  intros T. destruct (run_G ops _ (G_init tbl) T) as (s & E & g & _). exists s. split; auto. split; intros k p F; apply mfind_in in F.
  destruct (g_sym _ g _ _ F) as (b & a & _ & L & C). exists a. split; auto. apply deref_at; auto.
  destruct (g_nam _ g _ _ F) as (b & a & _ & L & C). exists a. split; auto. apply deref_at; auto.
Qed.

Lemma reset_throws tbl ops s p : tidy_run (pt_init tbl) ops -> prun (pt_init tbl) ops = Ok s -> given s p -> pstep s (PReset p) = Err ErrPlain.
Proof.
  intros T E GV. destruct (run_G ops _ (G_init tbl) T) as (s' & E' & g & _). rewrite E in E'. injection E' as <-. destruct (given_pair s p g GV) as (b & a & I & _).
  unfold pstep. destruct (existsb (fun x => Nat.eqb (snd x) p) (pt_pairs s)) eqn:X; auto.
  apply existsb_exists in X. destruct X as (y & J & Q). apply Nat.eqb_eq in Q. exfalso. apply (g_u3 _ g (p, b) y); auto.
Qed.

Lemma reset_all_to s p a : G s -> deflt s p a -> exists s', pstep s PResetAll = Ok s' /\ deref (pt_heap s') p = Ok a.
Proof.
  intros g (b & I & L). destruct (restore_all (pt_pairs s) (pt_heap s)) as (h' & E & R & O).
  + intros x y. apply g.
  + intros x y. apply g.
  + intros x J. destruct (g_live _ g x J) as (a1 & b1 & E1 & E2 & _). eauto.
  + unfold pstep. rewrite E. cbn [obind]. eexists. split. reflexivity. apply deref_at. cbn [pt_heap]. pose proof (R _ I) as Q. cbn in Q. rewrite Q. auto.
Qed.

Lemma reset_all_def tbl ops1 s1 a s2 p ops2 s3 : tidy_run (pt_init tbl) ops1 -> prun (pt_init tbl) ops1 = Ok s1 ->
  pstep s1 (PDef a) = Ok s2 -> pt_symbol s2 (a_symbol a) = Some p -> tidy_run s2 ops2 -> ~ In (PDelete p) ops2 -> prun s2 ops2 = Ok s3 ->
  exists s4, pstep s3 PResetAll = Ok s4 /\ deref (pt_heap s4) p = Ok a.
Proof.
  intros T1 E1 S SY T2 N E2. destruct (run_G ops1 _ (G_init tbl) T1) as (s' & E' & g & _). rewrite E1 in E'. injection E' as <-.
  assert (s2 = add a s1) as ->. { unfold pstep in S. destruct (mfind (a_symbol a) (pt_sym s1)), (mfind (a_name a) (pt_nam s1)); congruence. }
  destruct (run_G ops2 _ (G_add a s1 g) T2) as (s' & E' & g3 & K). rewrite E2 in E'. injection E' as <-. apply reset_all_to; auto. apply K; auto.
  unfold pt_symbol, add, mset, mfind in SY. cbn in SY. rewrite String.eqb_refl in SY. injection SY as <-. exists (length (pt_heap s1)). unfold add. cbn [pt_pairs pt_heap]. split. apply in_or_app. right. left. auto.
  rewrite nth_error_app2 by lia. rewrite Nat.sub_diag. reflexivity.
Qed.

Lemma init_deflt tbl p b a : In (p, b) (pt_pairs (pt_init tbl)) -> nth_error (pt_heap (pt_init tbl)) p = Some (Some a) -> nth_error (pt_heap (pt_init tbl)) b = Some (Some a).
Proof.
  assert (AL : forall k of s, pt_pairs (@alias D k of s) = pt_pairs s /\ pt_heap (alias k of s) = pt_heap s) by (intros; unfold alias; destruct (match mfind of (pt_sym s) with Some p => Some p | None => mfind of (pt_nam s) end); auto).
  unfold pt_init. rewrite !(proj1 (AL _ _ _)), !(proj2 (AL _ _ _)).
  assert (A : forall t s, G s -> (forall x, In x (pt_pairs s) -> nth_error (pt_heap s) (fst x) = nth_error (pt_heap s) (snd x)) ->
    let s' := fold_left (fun s a => add a s) t s in forall x, In x (pt_pairs s') -> nth_error (pt_heap s') (fst x) = nth_error (pt_heap s') (snd x)).
  { induction t as [|c t IH]; cbn [fold_left]; auto. intros s g H. apply IH. apply G_add; auto. intros x I. unfold add in *. cbn [pt_pairs pt_heap] in *. apply in_app_or in I. destruct I as [I|[<-|[]]].
    - destruct (pair_lt s x g I). rewrite !nth_error_app1 by auto. auto.
    - cbn [fst snd]. rewrite !(nth_error_app2 (pt_heap s)) by lia. rewrite Nat.sub_diag. replace (S (length (pt_heap s)) - length (pt_heap s)) with 1 by lia. reflexivity. }
  intros I L. rewrite <- L. symmetry. apply (A tbl (mkPt [] [] [] [])) in I; auto. split; cbn; try tauto. constructor. intros [|q] c; discriminate. cbn. tauto.
Qed.
Lemma reset_all_init tbl k p a ops s : pt_symbol (pt_init tbl) k = Some p -> deref (pt_heap (pt_init tbl)) p = Ok a ->
  tidy_run (pt_init tbl) ops -> ~ In (PDelete p) ops -> prun (pt_init tbl) ops = Ok s -> exists s', pstep s PResetAll = Ok s' /\ deref (pt_heap s') p = Ok a.
Proof.
  intros SY L T N E. destruct (run_G ops _ (G_init tbl) T) as (s1 & E' & g & K). rewrite E in E'. injection E' as <-. apply reset_all_to; auto. apply K; auto.
  apply mfind_in in SY. destruct (g_sym _ (G_init tbl) _ _ SY) as (b & a' & I & L' & _). apply deref_at in L. exists b. split; auto. apply (init_deflt tbl p b a I L).
Qed.

Lemma clear_all l : forall h, NoDup l -> (forall x y, In x l -> In y l -> fst x = fst y -> x = y) -> (forall x y, In x l -> In y l -> snd x = snd y -> x = y) ->
  (forall x y : nat * nat, In x l -> In y l -> fst x <> snd y) -> (forall x, In x l -> exists a b, nth_error h (fst x) = Some (Some a) /\ nth_error h (snd x) = Some (Some b)) ->
  exists h', ofold (fun h x => obind (pfree h (fst x)) (fun h => pfree h (snd x))) l h = Ok h' /\
    forall q a, nth_error h' q = Some (Some a) -> nth_error h q = Some (Some a) /\ forall x, In x l -> q <> fst x /\ q <> snd x.
Proof.
  induction l as [|x l IH]; intros h ND U1 U2 U3 L. { exists h. split; [reflexivity|]. intros q a Q. split; [exact Q|]. intros ? []. }
  inversion ND as [|? ? NI ND']; subst. destruct (L x (or_introl eq_refl)) as (a & b & Ea & Eb). cbn [ofold].
  assert (E : obind (pfree h (fst x)) (fun h => pfree h (snd x)) = Ok (upd (snd x) None (upd (fst x) None h))).
  { unfold pfree at 1. rewrite (proj1 (deref_at _ _ _) Ea). cbn [obind]. unfold pfree. assert (E2 : deref (upd (fst x) None h) (snd x) = Ok b). { apply deref_at. rewrite upd_other; auto. intros Q. apply (U3 x x); cbn; auto. } rewrite E2. reflexivity. }
  rewrite E. cbn [obind].
  destruct (IH (upd (snd x) None (upd (fst x) None h))) as (h' & E' & H'); auto.
  - intros y z I J. apply U1; right; auto.
  - intros y z I J. apply U2; right; auto.
  - intros y z I J. apply U3; right; auto.
  - intros y I. destruct (L y (or_intror I)) as (a' & b' & E1 & E2). exists a', b'.
    assert (fst y <> fst x) by (intros Q; apply NI; rewrite <- (U1 y x); cbn; auto). assert (snd y <> snd x) by (intros Q; apply NI; rewrite <- (U2 y x); cbn; auto).
    assert (fst y <> snd x) by (apply U3; cbn; auto). assert (snd y <> fst x) by (intros Q; apply (U3 x y); cbn; auto).
    rewrite !upd_other by auto. auto.
  - exists h'. split; auto. intros q c Q. apply H' in Q. destruct Q as [Q W]. 
    assert (N2 : q <> snd x). { intros ->. rewrite upd_same in Q by (rewrite upd_len; apply nth_error_Some; congruence). discriminate. } rewrite upd_other in Q by auto.
    assert (N1 : q <> fst x). { intros ->. rewrite upd_same in Q by (apply nth_error_Some; congruence). discriminate. } rewrite upd_other in Q by auto.
    split; auto. intros y [<-|I]; auto.
Qed.
Lemma cleared tbl ops s : tidy_run (pt_init tbl) ops -> prun (pt_init tbl) ops = Ok s -> exists h, pt_clear s = Ok h /\ forall q x, nth_error h q = Some x -> x = None.
Proof.
  intros T E. destruct (run_G ops _ (G_init tbl) T) as (s1 & E' & g & _). rewrite E in E'. injection E' as <-.
  destruct (clear_all (pt_pairs s) (pt_heap s)) as (h & C & H); try apply g.
  - intros x I. destruct (g_live _ g x I) as (a & b & E1 & E2 & _). eauto.
  - exists h. split; auto. intros q [a|] Q; auto. apply H in Q. destruct Q as [Q W]. destruct (g_own _ g _ _ Q) as (x & I & [Z|Z]); apply W in I; tauto.
Qed.

(** ** what the calls do to the indices *)
Lemma mfind_set k p m k' : mfind k' (mset k p m) = if String.eqb k k' then Some p else mfind k' m.
Proof. unfold mfind, mset. cbn. destruct (String.eqb k k'); reflexivity. Qed.
Lemma mfind_erase k m k' : mfind k' (merase k m) = if String.eqb k k' then None else mfind k' m.
Proof.
  unfold mfind, merase. induction m as [|[k0 q] m IH]; cbn. destruct (String.eqb k k'); reflexivity.
  destruct (String.eqb_spec k0 k) as [->|N]; cbn. rewrite IH. destruct (String.eqb k k'); reflexivity.
  destruct (String.eqb_spec k0 k') as [->|N']; auto. destruct (String.eqb_spec k k'); congruence.
Qed.
Lemma define_ok s a : match pstep s (PDef a) with
  | Ok s' => pt_symbol s (a_symbol a) = None /\ pt_name s (a_name a) = None /\
      (exists p, pt_symbol s' (a_symbol a) = Some p /\ pt_name s' (a_name a) = Some p /\ deref (pt_heap s') p = Ok a) /\
      (forall k, k <> a_symbol a -> pt_symbol s' k = pt_symbol s k) /\ (forall k, k <> a_name a -> pt_name s' k = pt_name s k) /\
      (forall q b, deref (pt_heap s) q = Ok b -> deref (pt_heap s') q = Ok b)
  | Err _ => pt_symbol s (a_symbol a) <> None \/ pt_name s (a_name a) <> None
  | _ => False
  end.
Proof.
  unfold pstep, pt_symbol, pt_name. destruct (mfind (a_symbol a) (pt_sym s)) eqn:E1; [left; congruence|]. destruct (mfind (a_name a) (pt_nam s)) eqn:E2; [right; congruence|].
  unfold add. cbn [pt_heap pt_sym pt_nam]. split; auto. split; auto. split.
  - exists (S (length (pt_heap s))). rewrite !mfind_set, !String.eqb_refl. split; auto. split; auto. apply deref_at. rewrite (nth_error_app2 (pt_heap s)) by lia. replace (S (length (pt_heap s)) - length (pt_heap s)) with 1 by lia. reflexivity.
  - split; [|split].
    + intros k N. rewrite mfind_set. destruct (String.eqb_spec (a_symbol a) k); congruence.
    + intros k N. rewrite mfind_set. destruct (String.eqb_spec (a_name a) k); congruence.
    + intros q b L. apply deref_at. apply deref_at in L. apply at_app. auto.
Qed.
Lemma delete_ok tbl ops s p a : tidy_run (pt_init tbl) ops -> prun (pt_init tbl) ops = Ok s -> given s p -> deref (pt_heap s) p = Ok a ->
  exists s', pstep s (PDelete p) = Ok s' /\ deref (pt_heap s') p = UB /\
  (forall k, pt_symbol s' k = if String.eqb (a_symbol a) k then None else pt_symbol s k) /\
  (forall k, pt_name s' k = if String.eqb (a_name a) k then None else pt_name s k) /\
  (forall q, given s q -> q <> p -> deref (pt_heap s') q = deref (pt_heap s) q).
Proof.
  intros T E GV L. destruct (run_G ops _ (G_init tbl) T) as (s1 & E' & g & _). rewrite E in E'. injection E' as <-. destruct (given_pair s p g GV) as (b & a' & I & L'). apply deref_at in L'. rewrite L in L'. injection L' as <-.
  unfold pstep. rewrite (in_pairs_find s p b g I). cbn [fst snd]. rewrite L. cbn [obind]. unfold pfree. rewrite L. cbn [obind].
  destruct (g_live _ g _ I) as (a1 & b1 & E1 & E2 & _). cbn [fst snd] in E1, E2. assert (NE : p <> b) by (apply (g_u3 _ g (p, b) (p, b)); auto).
  assert (D2 : deref (upd p None (pt_heap s)) b = Ok b1) by (apply deref_at; rewrite upd_other; auto). rewrite D2. cbn [obind]. eexists. split. reflexivity. cbn [pt_heap pt_sym pt_nam]. split; [|split; [|split]].
  - unfold deref. rewrite upd_other by auto. rewrite upd_same. reflexivity. apply nth_error_Some. congruence.
  - intros k. apply mfind_erase.
  - intros k. apply mfind_erase.
  - intros q GQ N. destruct (given_pair s q g GQ) as (c & d & J & _). assert (q <> b) by (apply (g_u3 _ g (q, c) (p, b)); auto). unfold deref. rewrite !upd_other by auto. reflexivity.
Qed.
Lemma kept s op s' : pstep s op = Ok s' -> match op with PDef _ | PDelete _ => True | _ => forall k, pt_symbol s' k = pt_symbol s k /\ pt_name s' k = pt_name s k end.
Proof.
  destruct op as [a|p|p| |p a]; auto; unfold pstep. destruct (existsb _ _); discriminate. destruct (ofold restore (pt_pairs s) (pt_heap s)); cbn; try discriminate. intros E; injection E as <-. auto.
  destruct (deref (pt_heap s) p); cbn; try discriminate. intros E; injection E as <-. auto.
Qed.
Lemma init_finds tbl a : In a tbl -> (exists p, pt_symbol (pt_init tbl) (a_symbol a) = Some p) /\ (exists p, pt_name (pt_init tbl) (a_name a) = Some p).
Proof.
  intros I. assert (AL : forall k of s k', (exists p, pt_symbol s k' = Some p) -> exists p, pt_symbol (@alias D k of s) k' = Some p).
  { intros k of s k' (p & E). unfold alias, pt_symbol in *. destruct (match mfind of (pt_sym s) with Some p => Some p | None => mfind of (pt_nam s) end); cbn [pt_sym]; eauto. rewrite mfind_set. destruct (String.eqb k k'); eauto. }
  assert (AN : forall k of s, pt_nam (@alias D k of s) = pt_nam s). { intros. unfold alias. destruct (match mfind of (pt_sym s) with Some p => Some p | None => mfind of (pt_nam s) end); auto. }
  assert (F : forall t s, (In a t \/ ((exists p, pt_symbol s (a_symbol a) = Some p) /\ exists p, pt_name s (a_name a) = Some p)) ->
    let s' := fold_left (fun s a => add a s) t s in (exists p, pt_symbol s' (a_symbol a) = Some p) /\ exists p, pt_name s' (a_name a) = Some p).
  { induction t as [|c t IH]; intros s [J|J]; cbn [fold_left]; auto. destruct J. 2: apply IH; right. destruct J as [->|J]; apply IH; [right|left; auto].
    - unfold pt_symbol, pt_name, add. cbn [pt_sym pt_nam]. rewrite !mfind_set, !String.eqb_refl. eauto.
    - destruct J as [(p & E1) (q & E2)]. unfold pt_symbol, pt_name, add in *. cbn [pt_sym pt_nam]. rewrite !mfind_set. destruct (String.eqb (a_symbol c) (a_symbol a)), (String.eqb (a_name c) (a_name a)); eauto. }
  destruct (F tbl (mkPt [] [] [] []) (or_introl I)) as [F1 F2]. unfold pt_init. split. apply AL, AL, F1. unfold pt_name. rewrite !AN. apply F2.
Qed.
Lemma unique_values tbl a p : NoDup (map (fun x => a_symbol x) tbl) -> ~ In "2-H"%string (map (fun x => a_symbol x) tbl) -> ~ In "3-H"%string (map (fun x => a_symbol x) tbl) ->
  In a tbl -> pt_symbol (pt_init tbl) (a_symbol a) = Some p -> deref (pt_heap (pt_init tbl)) p = Ok a.
Proof.
  intros ND N2 N3 I E.
  assert (AH : forall k of s, pt_heap (@alias D k of s) = pt_heap s). { intros. unfold alias. destruct (match mfind of (pt_sym s) with Some p => Some p | None => mfind of (pt_nam s) end); auto. }
  assert (IN : forall t s q b, deref (pt_heap (fold_left (fun s a => add a s) t s)) q = Ok b -> In b t \/ exists q', deref (pt_heap s) q' = Ok b).
  { induction t as [|c t IH]; intros s q b Q; cbn [fold_left] in Q; eauto. apply IH in Q. destruct Q as [Q|(q' & Q)]. left. right. auto.
    apply deref_at in Q. unfold add in Q. cbn [pt_heap] in Q. destruct (Nat.lt_ge_cases q' (length (pt_heap s))). rewrite nth_error_app1 in Q by auto. right. exists q'. apply deref_at; auto.
    rewrite (nth_error_app2 (pt_heap s)) in Q by auto. destruct (q' - length (pt_heap s)) as [|[|[|]]]; cbn in Q; try discriminate; injection Q as <-; left; left; auto. }
  apply mfind_in in E. destruct (g_sym _ (G_init tbl) _ _ E) as (b & a' & _ & L & C). apply deref_at in L. rewrite L. f_equal.
  assert (I' : In a' tbl). { unfold pt_init in L. rewrite !AH in L. apply IN in L. destruct L as [L|(q & L)]; auto. apply deref_at in L. destruct q; discriminate. }
  assert (S : a_symbol a' = a_symbol a). { destruct C as [C|[[C _]|[C _]]]; auto; exfalso; [apply N2|apply N3]; rewrite <- C; apply in_map_iff; eauto. }
  clear - ND I I' S. induction tbl as [|x t IH]; [contradiction|]. cbn in ND. inversion ND as [|? ? NI ND']; subst. destruct I as [->|I], I' as [->|I']; auto.
  exfalso. apply NI. rewrite <- S. apply in_map_iff. eauto. exfalso. apply NI. rewrite S. apply in_map_iff. eauto.
Qed.
End P.
