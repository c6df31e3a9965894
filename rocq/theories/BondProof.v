(** Bond lengths and angles: the list of bonds. *)
From Coq Require Import Ascii String List Arith ZArith Reals Bool Lia Lra Sorted Permutation.
From Verif Require Import Base MathModel MetricModel MetricSpec MetricProof SphereModel SphereSpec SphereProof PdfModel PdfSpec PdfGeo ParserModel DataModel DataProof ElementTable ScatModel ScatSpec ScatProof BondModel BondSpec.
Import ListNotations.
Local Open Scope R_scope.

(** ** the metric *)
Section Geo.
Variable b : bphase.
Let p := bp_ph b.
Hypothesis FR : fresh b.
Hypothesis GC : good_cell p.
Lemma derived : exists de, phase_lattice p = Ok de /\ de_lat de = bp_lat b.
Proof. unfold phase_lattice. unfold fresh in FR. fold p in FR. rewrite FR. cbn. eexists. split; reflexivity. Qed.
Lemma b_dot h k : skalpro (l_gten (bp_lat b)) h k = along p h k.
Proof. destruct derived as (de & L & <-). destruct GC as (PC & NT & _). apply (gten_dot p de L PC NT). Qed.
Lemma b_el i j : (i < 3)%nat -> (j < 3)%nat -> l_gten (bp_lat b) i j = metric (cp_a0 p) (cp_win p) i j.
Proof. destruct derived as (de & L & <-). destruct GC as (PC & NT & _). apply (gten_el p de L PC NT). Qed.
Lemma b_psd h : 0 <= along p h h.
Proof. destruct derived as (de & L & _). destruct GC as (PC & NT & _). apply (g_psd p de L PC NT). Qed.
Lemma b_dist h : dist_of b h = Some (length_of p h).
Proof. unfold dist_of, nsqrt. rewrite b_dot. destruct (Rlt_dec _ 0). pose proof (b_psd h). lra. reflexivity. Qed.
Lemma len_sq h : length_of p h * length_of p h = along p h h. Proof. apply sqrt_sqrt, b_psd. Qed.
Lemma len_nn h : 0 <= length_of p h. Proof. apply R_sqrt.sqrt_pos. Qed.
Lemma len_ext h k : (forall i, (i < 3)%nat -> k i = h i) -> length_of p k = length_of p h.
Proof. apply nrm_ext. Qed.
Lemma along_ext h k h' k' : (forall i, (i < 3)%nat -> h' i = h i) -> (forall i, (i < 3)%nat -> k' i = k i) -> along p h' k' = along p h k.
Proof. intros E F. unfold along, dot33. rewrite !E, !F by lia. reflexivity. Qed.
Lemma along_sym h k : along p h k = along p k h.
Proof.
  unfold along, dot33. rewrite (metric_sym _ _ 1 0), (metric_sym _ _ 2 0), (metric_sym _ _ 2 1). ring.
Qed.
Lemma along_cauchy h k : along p h k * along p h k <= along p h h * along p k k.
Proof. apply cauchy. intros; apply metric_sym. apply b_psd. Qed.
Lemma len_le h k : along p h h <= along p k k -> length_of p h <= length_of p k.
Proof. intros H. apply sqrt_le_1; auto; apply b_psd. Qed.
Lemma len_lt h k : along p h h < along p k k -> length_of p h < length_of p k.
Proof. intros H. apply sqrt_lt_1; auto; apply b_psd. Qed.
End Geo.

(** ** selections *)
Lemma up_low_all q : map to_up q = chars "ALL" <-> same_but_case q (chars "all").
Proof.
  rewrite same_case_low. split; intros H.
  - replace (map to_low q) with (map to_low (map to_up q)). rewrite H. reflexivity.
    rewrite map_map. apply map_ext. apply low_up.
  - replace (map to_up q) with (map to_up (map to_low q)). rewrite H. reflexivity.
    rewrite map_map. apply map_ext. apply up_low.
Qed.
Lemma select_ok b q : known q -> exists l, select_atoms b q = Ok l /\ StronglySorted lt l /\ forall i, In i l <-> asked b q i.
Proof.
  intros K. unfold select_atoms, asked, natoms. set (n := length (cp_atoms (bp_ph b))).
  assert (SS : forall m k, StronglySorted lt (seq k m)).
  { induction m; intros k; simpl; constructor; auto. apply Forall_forall. intros x Hx. apply in_seq in Hx. lia. }
  destruct (text_eqb (map to_up q) (chars "ALL")) eqn:E.
  - apply text_eqb_eq in E. apply up_low_all in E. exists (seq 0 n). split; auto. split; auto. intros i. rewrite in_seq. split; [intros; split; [lia|auto]|intros [X _]; lia].
  - assert (A : ~ same_but_case q (chars "all")). { intros X. apply up_low_all in X. rewrite X in E. discriminate. }
    destruct K as [K|[e K]]; [contradiction|]. pose proof (proj2 (lookup_ok q e) K) as L. rewrite L.
    eexists. split; [reflexivity|]. split.
    + generalize (SS n 0%nat). generalize (seq 0 n). induction l as [|x l IH]; intros S; simpl. constructor. inversion S; subst.
      destruct (text_eqb (bp_sym b x) (esym e)); auto. constructor; auto. apply Forall_forall. intros y Y. apply filter_In in Y. eapply Forall_forall in H2; [|apply Y]. auto.
    + intros i. rewrite filter_In, in_seq. split.
      * intros [X Y]. apply text_eqb_eq in Y. split; [lia|]. right. exists e. auto.
      * intros [X [Y|[e' [Y Z]]]]; [contradiction|]. split; [lia|]. rewrite (means_unique _ _ _ K Y). apply text_eqb_eq. exact Z.
Qed.
Lemma select_bad b q : ~ known q -> select_atoms b q = Err ErrValue.
Proof.
  intros K. unfold select_atoms. destruct (text_eqb (map to_up q) (chars "ALL")) eqn:E.
  - apply text_eqb_eq in E. apply up_low_all in E. exfalso. apply K. left; auto.
  - destruct (pt_lookup elements q) as [e|] eqn:L; auto. apply lookup_ok in L. exfalso. apply K. right. eauto.
Qed.

(** ** stable sorting *)
Section Sort.
Context {A : Type}.
Variable key : A -> R.
Variable rank : A -> A -> Prop.
Hypothesis rank_trans : forall x y z, rank x y -> rank y z -> rank x z.
Fixpoint ins (x : A) (l : list A) : list A := match l with [] => [x] | y :: r => if Rlt_dec (key y) (key x) then y :: ins x r else x :: l end.
Definition isort (l : list A) : list A := fold_right ins [] l.
Definition bef x y := key x < key y \/ key x = key y /\ rank x y.
Lemma ins_perm x l : Permutation (x :: l) (ins x l).
Proof. induction l as [|y l IH]; simpl. auto. destruct (Rlt_dec _ _); auto. eapply perm_trans. apply perm_swap. auto. Qed.
Lemma isort_perm l : Permutation l (isort l).
Proof. induction l as [|x l IH]; simpl; auto. eapply perm_trans; [|apply ins_perm]. auto. Qed.
Lemma ins_sorted x l : StronglySorted bef l -> Forall (rank x) l -> StronglySorted bef (ins x l).
Proof.
  induction l as [|y l IH]; intros S F; simpl. constructor; auto. inversion S; subst. inversion F; subst.
  destruct (Rlt_dec _ _) as [L|L].
  - constructor; auto. apply Forall_forall. intros z Z. apply (Permutation_in _ (Permutation_sym (ins_perm x l))) in Z.
    destruct Z as [<-|Z]. left; auto. eapply Forall_forall in H2; eauto.
  - constructor; auto. constructor. unfold bef. destruct (Req_dec (key x) (key y)); [right; auto|left; lra].
    apply Forall_forall. intros z Z. pose proof (proj1 (Forall_forall _ _) H2 z Z) as B. pose proof (proj1 (Forall_forall _ _) H4 z Z) as B2.
    unfold bef in *. destruct (Req_dec (key x) (key z)); [right; auto|left; lra].
Qed.
Lemma isort_sorted l : StronglySorted rank l -> StronglySorted bef (isort l).
Proof.
  induction l as [|x l IH]; intros S; simpl. constructor. inversion S; subst. apply ins_sorted; auto.
  apply Forall_forall. intros y Y. apply (Permutation_in _ (Permutation_sym (isort_perm l))) in Y. eapply Forall_forall in H2; eauto.
Qed.
Variable mk : A -> pair_dist.
Hypothesis mk_key : forall x, pd_dij (mk x) = Some (key x).
Lemma sort_map l : stable_sort (map mk l) = map mk (isort l).
Proof.
  induction l as [|x l IH]; simpl; auto. unfold stable_sort in *. rewrite IH. generalize (isort l). induction l0 as [|y r IH2]; simpl; auto.
  unfold pd_lt. rewrite !mk_key. destruct (Rlt_dec (key y) (key x)); simpl; auto. rewrite IH2. reflexivity.
Qed.
End Sort.

Lemma ss_app {A} (r : A -> A -> Prop) l1 l2 : StronglySorted r l1 -> StronglySorted r l2 -> (forall x y, In x l1 -> In y l2 -> r x y) -> StronglySorted r (l1 ++ l2).
Proof.
  induction l1 as [|x l1 IH]; intros S1 S2 H; simpl; auto. inversion S1; subst. constructor. apply IH; auto. intros; apply H; simpl; auto.
  apply Forall_app. split; auto. apply Forall_forall. intros; apply H; simpl; auto.
Qed.
Lemma ss_flat {A B} (r : B -> B -> Prop) (o : A -> A -> Prop) (f : A -> list B) l : StronglySorted o l -> (forall x, In x l -> StronglySorted r (f x)) ->
  (forall x y u v, In x l -> In y l -> o x y -> In u (f x) -> In v (f y) -> r u v) -> StronglySorted r (flat_map f l).
Proof.
  induction l as [|x l IH]; intros S F H; simpl. constructor. inversion S; subst. apply ss_app. apply F; simpl; auto.
  apply IH; auto. intros; apply F; simpl; auto. intros y z u v Y Z. apply H; simpl; auto.
  intros u v U V. apply in_flat_map in V. destruct V as [y [Y V]]. apply (H x y); simpl; auto. eapply Forall_forall in H3; eauto.
Qed.
Lemma nodup_flat {A B} (f : A -> list B) l : NoDup l -> (forall x, In x l -> NoDup (f x)) -> (forall x y u, In x l -> In y l -> In u (f x) -> In u (f y) -> x = y) -> NoDup (flat_map f l).
Proof.
  induction l as [|x l IH]; intros N F H; simpl. constructor. inversion N; subst. apply nodup_app. apply F; simpl; auto.
  apply IH; auto. intros; apply F; simpl; auto. intros y z u Y Z. apply H; simpl; auto.
  intros u U V. apply in_flat_map in V. destruct V as [y [Y V]]. assert (x = y) by (apply (H x y u); simpl; auto). subst. contradiction.
Qed.
Lemma ss_lt_nodup l : StronglySorted lt l -> NoDup l.
Proof. induction 1; constructor; auto. intros X. eapply Forall_forall in H0; eauto. lia. Qed.

(** ** the list of bonds *)
Section Bonds.
Variable b : bphase.
Let p := bp_ph b.
Hypothesis FR : fresh b.
Hypothesis GC : good_cell p.
Variables (lo hi : R).
Definition in_range (x : pairT) : bool := if Rle_dec lo (apart p x) then if Rle_dec (apart p x) hi then true else false else false.
Lemma in_range_ok x : in_range x = true <-> lo <= apart p x <= hi.
Proof. unfold in_range. destruct (Rle_dec lo (apart p x)), (Rle_dec (apart p x) hi); split; intros; lra || discriminate || auto. Qed.
Definition vec_of (x : pairT) : v3 := let '(i, j, (m, n, o)) := x in
  fun k => pos_of b i k - pos_of b j k - IZR (match k with O => m | S O => n | _ => o end) * IZR (cp_icc p k).
Lemma vec_joins x k : (k < 3)%nat -> vec_of x k = joins p x k.
Proof. intros K. destruct x as [[i j] [[m n] o]]. destruct k as [|[|[|k]]]; try lia; cbn; unfold pos_of, atom_no; fold p; unfold no_atom; ring. Qed.
Definition made (x : pairT) : pair_dist := let '(i, j, _) := x in
  mkPd (Some (apart p x)) (ddist_of b (vec_of x) (fun k => bp_dpos b i k + bp_dpos b j k)) (Z.of_nat i + 1) (Z.of_nat j + 1).
Definition pick (i j : nat) (pts : list (Z * Z * Z)) : list pairT := filter in_range (map (fun t => (i, j, t)) pts).
Lemma one_ok i j t : one_bond b lo hi i j t = map made (filter in_range [(i, j, t)]).
Proof.
  destruct t as [[m n] o]. unfold one_bond. fold p.
  change (fun k => pos_of b i k - pos_of b j k - IZR (match k with O => m | S O => n | _ => o end) * IZR (cp_icc p k)) with (vec_of (i, j, (m, n, o))).
  rewrite (b_dist b FR GC). fold p. rewrite (len_ext b (joins p (i, j, (m, n, o)))) by (intros; apply vec_joins; auto). fold (apart p (i, j, (m, n, o))).
  simpl filter. unfold in_range. destruct (Rle_dec _ _); auto. destruct (Rle_dec _ _); auto.
Qed.
Lemma pick_ok i j pts : flat_map (one_bond b lo hi i j) pts = map made (pick i j pts).
Proof.
  unfold pick. induction pts as [|t pts IH]; auto. cbn [flat_map map]. rewrite IH, one_ok. cbn [filter]. destruct (in_range _); reflexivity.
Qed.
Definition bonds (is js : list nat) (pts : list (Z * Z * Z)) : list pairT := flat_map (fun i => flat_map (fun j => pick i j pts) js) is.
Lemma flat_map_map {A B C} (g : B -> C) (f : A -> list B) l : flat_map (fun x => map g (f x)) l = map g (flat_map f l).
Proof. induction l; simpl; auto. rewrite IHl, map_app. reflexivity. Qed.
Lemma bonds_ok is js pts : flat_map (fun i => flat_map (fun j => flat_map (one_bond b lo hi i j) pts) js) is = map made (bonds is js pts).
Proof.
  unfold bonds. rewrite <- flat_map_map. apply flat_map_ext. intros i. rewrite <- flat_map_map. apply flat_map_ext. intros j. apply pick_ok.
Qed.
Lemma pick_in i j pts x : In x (pick i j pts) <-> exists t, x = (i, j, t) /\ In t pts /\ lo <= apart p x <= hi.
Proof.
  unfold pick. rewrite filter_In, in_map_iff, in_range_ok. split.
  - intros ((t & <- & T) & H). eauto.
  - intros (t & -> & T & H). eauto.
Qed.
Lemma bonds_in is js pts i j t : In (i, j, t) (bonds is js pts) <-> In i is /\ In j js /\ In t pts /\ lo <= apart p (i, j, t) <= hi.
Proof.
  unfold bonds. rewrite in_flat_map. split.
  - intros (i' & I & X). apply in_flat_map in X. destruct X as (j' & J & X). apply pick_in in X. destruct X as (t' & E & T & H). inversion E; subst. auto.
  - intros (I & J & T & H). exists i. split; auto. apply in_flat_map. exists j. split; auto. apply pick_in. eauto.
Qed.
Definition rank (x y : pairT) : Prop := let '(i, j, _) := x in let '(i', j', _) := y in (i < i')%nat \/ i = i' /\ (j <= j')%nat.
Lemma bonds_rank is js pts : StronglySorted lt is -> StronglySorted lt js -> StronglySorted rank (bonds is js pts).
Proof.
  intros I J. unfold bonds. apply (ss_flat rank lt); auto.
  - intros i _. apply (ss_flat rank lt); auto.
    + intros j _. unfold pick. induction pts as [|t pts IH]; simpl. constructor. destruct (in_range _); auto. constructor; auto.
      apply Forall_forall. intros x X. apply pick_in in X. destruct X as (t' & -> & _). simpl. lia.
    + intros j j' u v _ _ L U V. apply pick_in in U, V. destruct U as (? & -> & _), V as (? & -> & _). simpl. lia.
  - intros i i' u v _ _ L U V. apply in_flat_map in U, V. destruct U as (? & _ & U), V as (? & _ & V). apply pick_in in U, V. destruct U as (? & -> & _), V as (? & -> & _). simpl. lia.
Qed.
Lemma bonds_nodup is js pts : StronglySorted lt is -> StronglySorted lt js -> NoDup pts -> NoDup (bonds is js pts).
Proof.
  intros I J P. apply ss_lt_nodup in I, J. unfold bonds. apply nodup_flat; auto.
  - intros i _. apply nodup_flat; auto.
    + intros j _. unfold pick. apply NoDup_filter. apply FinFun.Injective_map_NoDup; auto. intros x y E. inversion E; auto.
    + intros j j' u _ _ U V. apply pick_in in U, V. destruct U as (? & -> & _), V as (? & E & _). inversion E; auto.
  - intros i i' u _ _ U V. apply in_flat_map in U, V. destruct U as (? & _ & U), V as (? & _ & V). apply pick_in in U, V. destruct U as (? & -> & _), V as (? & E & _). inversion E; auto.
Qed.

Theorem types_ok q1 q2 : known q1 -> known q2 -> exists f0 W,
  (forall f, (f0 <= f)%nat -> bond_length_types f b q1 q2 lo hi = Ok (map made W)) /\
  NoDup W /\ StronglySorted (before p) W /\
  (forall i j t, In (i, j, t) W -> asked b q1 i /\ asked b q2 j /\ lo <= apart p (i, j, t) <= hi) /\
  (forall i j t, asked b q1 i -> asked b q2 j -> lo <= apart p (i, j, t) <= hi ->
     (forall k, (k < 3)%nat -> Rabs (at_pos (atom_no p i) k - at_pos (atom_no p j) k) <= 1) -> In (i, j, t) W) /\
  (forall i j t, In (i, j, t) W -> length_of p (trans p t) < hi + circum_diameter (bp_lat b) (cp_atoms p)).
Proof.
  intros K1 K2. destruct (select_ok b q1 K1) as (is & E1 & S1 & A1). destruct (select_ok b q2 K2) as (js & E2 & S2 & A2).
  destruct (derived b FR) as (de & L & DL). pose proof GC as (PC & NT & IC). fold p in L.
  set (bz := circum_diameter (bp_lat b) (cp_atoms p)).
  destruct (sphere_found p PC IC (lo - bz) (hi + bz)) as (f0 & pts & F & N & C & SB).
  exists f0, (isort (apart p) (bonds is js pts)). pose proof (isort_perm (apart p) (bonds is js pts)) as PM.
  split; [|split; [|split; [|split; [|split]]]].
  - intros f Hf. unfold bond_length_types. rewrite E1, E2. cbn [obind]. fold p bz. rewrite F by auto. cbn [obind]. rewrite bonds_ok.
    rewrite (sort_map (apart p) made); auto. intros [[i j] t]. reflexivity.
  - apply (Permutation_NoDup PM). apply bonds_nodup; auto.
  - assert (X : StronglySorted (bef (apart p) rank) (isort (apart p) (bonds is js pts))) by (apply isort_sorted, bonds_rank; auto).
    revert X. generalize (isort (apart p) (bonds is js pts)). induction 1 as [|x l S IH F']; constructor; auto.
    eapply Forall_impl; [|exact F']. intros [[i' j'] t']. destruct x as [[i j] t]. auto.
  - intros i j t X. apply (Permutation_in _ (Permutation_sym PM)) in X. apply bonds_in in X. rewrite A1, A2 in X. tauto.
  - intros i j t X Y Z D. apply (Permutation_in _ PM). apply bonds_in. rewrite A1, A2. split; [exact X|split; [exact Y|split; [|exact Z]]].
    apply C. assert (AN : cp_atoms p <> []). { destruct X as [X _]. fold p in X. unfold natoms in X. destruct (cp_atoms p); simpl in X; [lia|discriminate]. }
    pose proof (circum_bound p de L PC NT (fun k => at_pos (atom_no p i) k - at_pos (atom_no p j) k) AN D) as CB. rewrite DL in CB. fold bz in CB.
    pose proof (sep_trans_hi p de L PC NT (atom_no p i) (atom_no p j) t) as HI. pose proof (sep_trans_lo p de L PC NT (atom_no p i) (atom_no p j) t) as LO.
    unfold apart, joins in Z. lra.
  - intros i j t X. apply (Permutation_in _ (Permutation_sym PM)) in X. apply bonds_in in X. apply SB. tauto.
Qed.
Lemma made_entry x : entry p x (made x).
Proof. destruct x as [[i j] t]. repeat split. Qed.
End Bonds.
Lemma types_unknown f b q1 q2 lo hi : ~ known q1 \/ ~ known q2 -> bond_length_types f b q1 q2 lo hi = Err ErrValue.
Proof.
  intros [K|K]; unfold bond_length_types; rewrite (select_bad b _ K). reflexivity.
  destruct (select_atoms b q1) eqn:E; cbn; auto; unfold select_atoms in E; destruct (text_eqb _ _) in E; try discriminate; destruct (pt_lookup _ _) in E; try discriminate. inversion E. auto.
Qed.
