(** Bond lengths and angles: the nearest image, one distance, one angle. *)
From Coq Require Import Ascii String List Arith ZArith Reals Bool Lia Lra.
From Verif Require Import Base MathModel MetricModel MetricSpec MetricProof SphereModel SphereSpec SphereProof PdfModel PdfSpec PdfGeo PdfFinal ParserModel BondModel BondSpec BondProof.
Import ListNotations.
Local Open Scope R_scope.

(** ** the remainder *)
Lemma fmod_pos x n : 0 < n -> 0 <= x -> 0 <= fmod x n < n.
Proof.
  intros N X. unfold fmod, ztrunc. assert (Q : 0 <= x / n) by (apply Rmult_le_pos; [auto|apply Rlt_le, Rinv_0_lt_compat; auto]).
  destruct (Rlt_dec (x / n) 0); [lra|]. pose proof (SphereProof.zfloor_spec (x / n)) as S. assert (E : x = x / n * n) by (field; lra).
  set (q := x / n) in *. clearbody q. rewrite E. rewrite <- Rmult_minus_distr_r. split. apply Rmult_le_pos; lra. replace n with (1 * n) at 2 by ring. apply Rmult_lt_compat_r; lra.
Qed.
Lemma zceil_opp x : zceil (- x) = (- zfloor x)%Z.
Proof. unfold zceil. rewrite Ropp_involutive. reflexivity. Qed.
Lemma zint (z w : Z) x : IZR z <= x < IZR z + 1 -> IZR w <= x < IZR w + 1 -> z = w.
Proof. intros A B. assert (IZR z < IZR w + 1) by lra. assert (IZR w < IZR z + 1) by lra. change 1 with (IZR 1) in H, H0. rewrite <- plus_IZR in H, H0. apply lt_IZR in H, H0. lia. Qed.
Lemma fmod_opp x n : 0 < n -> fmod (- x) n = - fmod x n.
Proof.
  intros N. unfold fmod, ztrunc. replace (- x / n) with (- (x / n)) by (field; lra). set (q := x / n).
  destruct (Rlt_dec q 0), (Rlt_dec (- q) 0); try lra.
  - unfold zceil. rewrite opp_IZR. ring.
  - rewrite zceil_opp, opp_IZR. ring.
  - assert (q = 0) by lra. rewrite H, Ropp_0. assert (zfloor 0 = 0%Z). { apply (zint _ _ 0). apply SphereProof.zfloor_spec. lra. } rewrite H0. ring.
Qed.
Lemma fmod_neg x n : 0 < n -> x <= 0 -> - n < fmod x n <= 0.
Proof. intros N X. pose proof (fmod_pos (- x) n N ltac:(lra)). rewrite fmod_opp in H by auto. lra. Qed.

(** ** the candidates *)
Lemma loop_two f x c : 0 < c -> - c < x < 0 -> loop_vals (S (S (S f))) x c = Ok [x; x + c].
Proof. intros C X. cbn [loop_vals]. destruct (Rlt_dec x c); [|lra]. destruct (Rlt_dec (x + c) c); [|lra]. destruct (Rlt_dec (x + c + c) c); [lra|]. reflexivity. Qed.
Lemma loop_one f c : 0 < c -> loop_vals (S (S (S f))) 0 c = Ok [0].
Proof. intros C. cbn [loop_vals]. destruct (Rlt_dec 0 c); [|lra]. destruct (Rlt_dec (0 + c) c); [lra|]. reflexivity. Qed.
Lemma loop_any f x c : 0 < c -> - c < x <= 0 -> exists l, loop_vals (S (S (S f))) x c = Ok l /\ forall y, In y l -> exists z : Z, y = x + IZR z * c.
Proof.
  intros C X. destruct (Req_dec x 0) as [->|N].
  - exists [0]. split. apply loop_one; auto. intros y [<-|[]]. exists 0%Z. lra.
  - exists [x; x + c]. split. apply loop_two; lra. intros y [<-|[<-|[]]]. exists 0%Z; lra. exists 1%Z; lra.
Qed.
Lemma fold_try g m l : forall x, (exists y, fold_left (try_test g m) l x = y /\ (y = x \/ In y l /\ skalpro g y y < m)).
Proof.
  induction l as [|a l IH]; intros x; simpl. exists x. auto.
  destruct (IH (try_test g m x a)) as (y & E & D). exists y. split; [exact E|]. destruct D as [H|[H H']].
  - unfold try_test in H. destruct (Rlt_dec (skalpro g a a) m); subst y; [right|left]; auto.
    rewrite H. auto.
  - right. split; auto.
Qed.

Section Near.
Variable b : bphase.
Let p := bp_ph b.
Hypothesis FR : fresh b.
Hypothesis GC : good_cell p.
Let c k := IZR (cp_icc p k).
Lemma c_pos k : 0 < c k. Proof. destruct GC as (_ & _ & I). apply IZR_lt. specialize (I k). lia. Qed.
Definition img (h y : v3) : Prop := forall k, (k < 3)%nat -> exists z : Z, y k = h k + IZR z * c k.
Lemma img_trans h y w : img h y -> img y w -> img h w.
Proof. intros A B k K. destruct (A k K) as [z Z]. destruct (B k K) as [z' Z']. exists (z + z')%Z. rewrite plus_IZR. lra. Qed.
Lemma fmod_img h : img h (fun k => fmod (h k) (c k)).
Proof. intros k K. destruct (fmod_ok (h k) (c k) (c_pos k)) as (_ & z & E). exists (- z)%Z. rewrite opp_IZR. lra. Qed.

Lemma right_dec : {forall k, (k < 3)%nat -> cp_win p k = 90} + {~ forall k, (k < 3)%nat -> cp_win p k = 90}.
Proof.
  destruct (Req_EM_T (cp_win p 0%nat) 90); [|right; intros X; specialize (X 0%nat ltac:(lia)); contradiction].
  destruct (Req_EM_T (cp_win p 1%nat) 90); [|right; intros X; specialize (X 1%nat ltac:(lia)); contradiction].
  destruct (Req_EM_T (cp_win p 2%nat) 90); [|right; intros X; specialize (X 2%nat ltac:(lia)); contradiction].
  left. intros [|[|[|k]]] K; auto; lia.
Qed.
Lemma near_right f h : right_angles p -> make_nearest f b h = Ok (fun k => fmod (h k) (c k)).
Proof.
  intros W. unfold make_nearest. fold p. unfold is_eq at 4 5 6. rewrite !W by lia. destruct (Req_EM_T 90 90); [|lra]. rewrite orb_true_r. reflexivity.
Qed.
(** the representative in the octant of negative coordinates *)
Definition octant (h : v3) : v3 := fun k => let x := fmod (h k) (c k) in if Rlt_dec 0 x then x - c k else x.
Lemma octant_in h k : - c k < octant h k <= 0.
Proof.
  unfold octant. pose proof (c_pos k) as C. destruct (fmod_ok (h k) (c k) C) as (B & _). apply Rabs_def2 in B. destruct (Rlt_dec _ _); lra.
Qed.
Lemma octant_img h : img h (octant h).
Proof.
  intros k K. destruct (fmod_img h k K) as [z E]. unfold octant. cbn zeta. destruct (Rlt_dec _ _). exists (z - 1)%Z. rewrite minus_IZR. lra. exists z. auto.
Qed.
Lemma octant_unique h y k : (k < 3)%nat -> img h y -> - c k < y k <= 0 -> y k = octant h k.
Proof.
  intros K I Y. destruct (I k K) as [z E]. destruct (octant_img h k K) as [w F]. pose proof (octant_in h k) as O. pose proof (c_pos k) as C.
  assert (D : y k - octant h k = IZR (z - w) * c k) by (rewrite minus_IZR; lra).
  assert (-1 < IZR (z - w) < 1) by nra. destruct H as [A B]. apply lt_IZR in A, B. assert ((z - w)%Z = 0%Z) by lia. rewrite H in D. lra.
Qed.
Lemma near_ok f h : exists y, make_nearest (S (S (S f))) b h = Ok y /\ img h y /\
  (~ right_angles p -> along p y y <= along p (octant h) (octant h)).
Proof.
  unfold make_nearest. fold p. destruct (_ || _)%bool eqn:E.
  - eexists. split. reflexivity. split. apply fmod_img. intros NR. apply orb_true_iff in E. destruct E as [E|E].
    + assert (Z : forall k, (k < 3)%nat -> fmod (h k) (c k) = 0).
      { unfold is_eq in E. repeat match type of E with context [Req_EM_T ?a ?b] => destruct (Req_EM_T a b) end; try discriminate. intros [|[|[|k]]] K; auto; lia. }
      assert (O : forall k, (k < 3)%nat -> octant h k = fmod (h k) (c k)). { intros k K. unfold octant. rewrite Z by auto. cbn. destruct (Rlt_dec 0 0); lra. }
      right. apply along_ext; intros; rewrite O; auto.
    + exfalso. apply NR. unfold is_eq in E. repeat match type of E with context [Req_EM_T ?a ?b] => destruct (Req_EM_T a b) end; try discriminate. intros [|[|[|k]]] K; auto; lia.
  - change (fun i => if Rlt_dec 0 (fmod (h i) (IZR (cp_icc p i))) then fmod (h i) (IZR (cp_icc p i)) - IZR (cp_icc p i) else fmod (h i) (IZR (cp_icc p i))) with (octant h).
    change (if Rlt_dec 0 (fmod (h 0%nat) (IZR (cp_icc p 0))) then fmod (h 0%nat) (IZR (cp_icc p 0)) - IZR (cp_icc p 0) else fmod (h 0%nat) (IZR (cp_icc p 0))) with (octant h 0%nat).
    change (if Rlt_dec 0 (fmod (h 1%nat) (IZR (cp_icc p 1))) then fmod (h 1%nat) (IZR (cp_icc p 1)) - IZR (cp_icc p 1) else fmod (h 1%nat) (IZR (cp_icc p 1))) with (octant h 1%nat).
    change (if Rlt_dec 0 (fmod (h 2%nat) (IZR (cp_icc p 2))) then fmod (h 2%nat) (IZR (cp_icc p 2)) - IZR (cp_icc p 2) else fmod (h 2%nat) (IZR (cp_icc p 2))) with (octant h 2%nat).
    destruct (loop_any f (octant h 0%nat) (c 0%nat) (c_pos 0) (octant_in h 0)) as (l0 & E0 & I0).
    destruct (loop_any f (octant h 1%nat) (c 1%nat) (c_pos 1) (octant_in h 1)) as (l1 & E1 & I1).
    destruct (loop_any f (octant h 2%nat) (c 2%nat) (c_pos 2) (octant_in h 2)) as (l2 & E2 & I2).
    unfold c in E0, E1, E2. rewrite E0, E1, E2. cbn [obind].
    destruct (fold_try (l_gten (bp_lat b)) (skalpro (l_gten (bp_lat b)) (octant h) (octant h)) (candidates l0 l1 l2) (octant h)) as (y & -> & Y).
    exists y. split; auto. destruct Y as [->|[Y S]].
    + split. apply octant_img. intros; lra.
    + split.
      * apply img_trans with (octant h). apply octant_img. unfold candidates in Y.
        apply in_flat_map in Y. destruct Y as (x & X & Y). apply in_flat_map in Y. destruct Y as (y1 & Y1 & Y). apply in_map_iff in Y. destruct Y as (z & <- & Z).
        intros [|[|[|k]]] K; try lia; auto.
      * intros _. rewrite !(b_dot b FR GC) in S. fold p in S. lra.
Qed.

(** ** images of a pair of atoms *)
Definition diff (i j : nat) : v3 := fun k => pos_of b i k - pos_of b j k.
Lemma img_pair i j y : img (diff i j) y -> exists t, forall k, (k < 3)%nat -> y k = joins p (i, j, t) k.
Proof.
  intros I. destruct (I 0%nat ltac:(lia)) as [z0 E0]. destruct (I 1%nat ltac:(lia)) as [z1 E1]. destruct (I 2%nat ltac:(lia)) as [z2 E2].
  exists ((- z0)%Z, (- z1)%Z, (- z2)%Z). intros [|[|[|k]]] K; try lia; unfold diff, pos_of in *; fold p in E0, E1, E2; cbn; unfold atom_no, no_atom; rewrite opp_IZR; unfold c in *; lra.
Qed.
Lemma pair_img i j t : img (diff i j) (joins p (i, j, t)).
Proof.
  destruct t as [[m n] o]. intros [|[|[|k]]] K; try lia; [exists (- m)%Z|exists (- n)%Z|exists (- o)%Z]; unfold diff, pos_of; fold p; cbn; unfold atom_no, no_atom, c; rewrite opp_IZR; ring.
Qed.

Lemma number_ok ia i : number p ia i -> bad_number b ia = false /\ Z.to_nat (ia - 1) = i.
Proof.
  intros [I ->]. unfold bad_number. fold p. fold (natoms p). split.
  - apply orb_false_iff. split; apply Z.ltb_ge; lia.
  - lia.
Qed.
Lemma number_bad ia : (forall i, ~ number p ia i) -> bad_number b ia = true.
Proof.
  intros H. destruct (bad_number b ia) eqn:E; auto. exfalso. unfold bad_number in E. fold p in E. fold (natoms p) in E. apply orb_false_iff in E. destruct E as [A B]. apply Z.ltb_ge in A, B.
  apply (H (Z.to_nat (ia - 1))). split; lia.
Qed.

Theorem length_ok f ia ja i j : number p ia i -> number p ja j -> (3 <= f)%nat -> exists t,
  bond_length_atoms f b ia ja = Ok (mkPd (Some (apart p (i, j, t))) (ddist_of b (joins p (i, j, t)) (fun k => bp_dpos b i k + bp_dpos b j k)) ia ja) /\
  (~ right_angles p -> forall t', (forall k, (k < 3)%nat -> - IZR (cp_icc p k) < joins p (i, j, t') k <= 0) -> apart p (i, j, t) <= apart p (i, j, t')) /\
  (right_angles p -> forall k, (k < 3)%nat -> joins p (i, j, t) k = fmod (at_pos (atom_no p i) k - at_pos (atom_no p j) k) (IZR (cp_icc p k))).
Proof.
  intros I J F. destruct f as [|[|[|f]]]; try lia. destruct (number_ok _ _ I) as [BI EI]. destruct (number_ok _ _ J) as [BJ EJ].
  unfold bond_length_atoms. rewrite BI, BJ, EI, EJ. cbn [orb]. change (fun k => pos_of b i k - pos_of b j k) with (diff i j).
  destruct (near_ok f (diff i j)) as (y & N & IM & O). destruct (img_pair i j y IM) as (t & T). exists t. rewrite N. cbn [obind]. split; [|split].
  - rewrite (b_dist b FR GC). fold p. rewrite (len_ext b (joins p (i, j, t))) by auto. fold (apart p (i, j, t)). do 2 f_equal.
    unfold ddist_of. rewrite !(b_dist b FR GC). fold p. rewrite (len_ext b (joins p (i, j, t))) by auto.
    destruct (Rlt_dec _ _); auto. f_equal. unfold dskalpro. cbn [fold_left idx3]. rewrite !T by lia. reflexivity.
  - intros NR t' T'. apply (len_le b FR GC). apply Rle_trans with (along p y y). right. apply along_ext; intros; symmetry; auto.
    eapply Rle_trans. apply O; auto. right. apply along_ext; intros k K; symmetry; apply octant_unique; auto; try apply pair_img; apply T'; auto.
  - intros RA k K. rewrite <- T by auto. rewrite (near_right (S (S (S f))) (diff i j) RA) in N. inversion N. reflexivity.
Qed.
Lemma length_bad f ia ja : (forall i, ~ number p ia i) \/ (forall i, ~ number p ja i) -> bond_length_atoms f b ia ja = Err ErrValue.
Proof. intros [H|H]; apply number_bad in H; unfold bond_length_atoms; rewrite H; rewrite ?orb_true_r; reflexivity. Qed.

(** ** right angles *)
Section Right.
Hypothesis RA : right_angles p.
Lemma along_right h k : along p h k = h 0%nat * k 0%nat * (cp_a0 p 0%nat * cp_a0 p 0%nat) + h 1%nat * k 1%nat * (cp_a0 p 1%nat * cp_a0 p 1%nat) + h 2%nat * k 2%nat * (cp_a0 p 2%nat * cp_a0 p 2%nat).
Proof.
  unfold along, dot33, metric, cell_cos. cbn [Nat.eqb Nat.add]. rewrite !RA by lia. change (cos (PI / 180 * 90)) with (m_cosd 90). rewrite cosd90. ring.
Qed.
Lemma edge_pos k : (k < 3)%nat -> 0 < cp_a0 p k.
Proof. destruct GC as ((A & B & C & _) & _). intros K. destruct k as [|[|[|k]]]; try lia; auto. Qed.
Lemma sq_abs x y : Rabs x <= Rabs y -> x * x <= y * y.
Proof. intros H. apply Rsqr_le_abs_1 in H. unfold Rsqr in H. auto. Qed.
Lemma sq_abs_lt x y : Rabs x < Rabs y -> x * x < y * y.
Proof. intros H. apply Rsqr_lt_abs_1 in H. unfold Rsqr in H. auto. Qed.
Lemma right_mono h y : (forall k, (k < 3)%nat -> Rabs (h k) <= Rabs (y k)) -> length_of p h <= length_of p y.
Proof.
  intros H. apply (len_le b FR GC). fold p. rewrite !along_right. pose proof (sq_abs _ _ (H 0%nat ltac:(lia))). pose proof (sq_abs _ _ (H 1%nat ltac:(lia))). pose proof (sq_abs _ _ (H 2%nat ltac:(lia))).
  pose proof (Rle_0_sqr (cp_a0 p 0%nat)). pose proof (Rle_0_sqr (cp_a0 p 1%nat)). pose proof (Rle_0_sqr (cp_a0 p 2%nat)). unfold Rsqr in *.
  repeat apply Rplus_le_compat; apply Rmult_le_compat_r; auto.
Qed.
Lemma right_mono_lt h y : (forall k, (k < 3)%nat -> Rabs (h k) <= Rabs (y k)) -> (exists k, (k < 3)%nat /\ Rabs (h k) < Rabs (y k)) -> length_of p h < length_of p y.
Proof.
  intros H (k & K & L). apply (len_lt b FR GC). fold p. rewrite !along_right. pose proof (sq_abs _ _ (H 0%nat ltac:(lia))). pose proof (sq_abs _ _ (H 1%nat ltac:(lia))). pose proof (sq_abs _ _ (H 2%nat ltac:(lia))).
  apply sq_abs_lt in L.
  pose proof (edge_pos 0 ltac:(lia)) as P0. pose proof (edge_pos 1 ltac:(lia)) as P1. pose proof (edge_pos 2 ltac:(lia)) as P2.
  assert (Q0 : 0 < cp_a0 p 0%nat * cp_a0 p 0%nat) by (apply Rmult_lt_0_compat; auto). assert (Q1 : 0 < cp_a0 p 1%nat * cp_a0 p 1%nat) by (apply Rmult_lt_0_compat; auto). assert (Q2 : 0 < cp_a0 p 2%nat * cp_a0 p 2%nat) by (apply Rmult_lt_0_compat; auto).
  assert (W0 := Rmult_le_compat_r _ _ _ (Rlt_le _ _ Q0) H0). assert (W1 := Rmult_le_compat_r _ _ _ (Rlt_le _ _ Q1) H1). assert (W2 := Rmult_le_compat_r _ _ _ (Rlt_le _ _ Q2) H2).
  destruct k as [|[|[|k]]]; try lia; [assert (V := Rmult_lt_compat_r _ _ _ Q0 L)|assert (V := Rmult_lt_compat_r _ _ _ Q1 L)|assert (V := Rmult_lt_compat_r _ _ _ Q2 L)]; lra.
Qed.
(** the remainder is the shortest representative when it is at most one half *)
Lemma int_half x n z : 0 < n -> Rabs x <= n / 2 -> Rabs x <= Rabs (x + IZR z * n).
Proof.
  intros N H. destruct (Z.eq_dec z 0) as [->|Z]. right. f_equal. ring.
  assert (Q : 1 <= Rabs (IZR z)). { rewrite <- abs_IZR. apply IZR_le. lia. }
  pose proof (Rabs_triang (x + IZR z * n) (- x)) as T. replace (x + IZR z * n + - x) with (IZR z * n) in T by ring. rewrite Rabs_Ropp, Rabs_mult, (Rabs_right n) in T by lra. nra.
Qed.
Lemma abs_fmod x n : 0 < n -> Rabs (fmod x n) = fmod (Rabs x) n.
Proof.
  intros N. destruct (Rle_dec 0 x). rewrite (Rabs_right x) by lra. apply Rabs_right. apply Rle_ge. apply fmod_pos; auto.
  rewrite (Rabs_left x) by lra. rewrite fmod_opp by auto. apply Rabs_left1. apply fmod_neg; lra.
Qed.
Lemma low_half_fmod x n : 0 < n -> 0 <= x -> low_half x n <-> fmod x n <= n / 2.
Proof.
  intros N X. pose proof (fmod_pos x n N X) as F. destruct (fmod_ok x n N) as (_ & w & E). split.
  - intros (z & Z). assert (D : fmod x n - (x - IZR z * n) = IZR (z - w) * n) by (rewrite minus_IZR; lra).
    assert (-1 < IZR (z - w) < 1) by nra. destruct H as [A B]. apply lt_IZR in A, B. assert ((z - w)%Z = 0%Z) by lia. rewrite H in D. lra.
  - intros H. exists w. lra.
Qed.
Theorem right_shortest i j t :
  (forall k, (k < 3)%nat -> joins p (i, j, t) k = fmod (at_pos (atom_no p i) k - at_pos (atom_no p j) k) (IZR (cp_icc p k))) ->
  (forall t', apart p (i, j, t) <= apart p (i, j, t')) <->
  (forall k, (k < 3)%nat -> low_half (Rabs (at_pos (atom_no p i) k - at_pos (atom_no p j) k)) (IZR (cp_icc p k))).
Proof.
  intros T. assert (AF : forall k, (k < 3)%nat -> Rabs (joins p (i, j, t) k) = fmod (Rabs (at_pos (atom_no p i) k - at_pos (atom_no p j) k)) (IZR (cp_icc p k))).
  { intros k K. rewrite T by auto. apply abs_fmod. apply c_pos. }
  assert (IM : forall t' k, (k < 3)%nat -> exists z : Z, joins p (i, j, t') k = joins p (i, j, t) k + IZR z * c k).
  { intros t' k K. destruct (pair_img i j t k K) as [z Z]. destruct (pair_img i j t' k K) as [w W]. exists (w - z)%Z. rewrite minus_IZR. lra. }
  split.
  - intros H k K. apply low_half_fmod. apply c_pos. apply Rabs_pos. rewrite <- AF by auto. apply Rnot_lt_le. intros L. fold (c k) in L.
    pose proof (c_pos k) as CK.
    assert (B : Rabs (joins p (i, j, t) k) < c k). { rewrite AF by auto. apply fmod_pos. apply c_pos. apply Rabs_pos. }
    set (y := joins p (i, j, t)) in *. set (s := if Rlt_dec 0 (y k) then (-1)%Z else 1%Z).
    assert (SH : Rabs (y k + IZR s * c k) < Rabs (y k)).
    { unfold s. unfold Rabs in B, L |- *. destruct (Rlt_dec 0 (y k)); repeat destruct (Rcase_abs _); lra. }
    set (y' := fun n => if (n =? k)%nat then y n + IZR s * c n else y n).
    assert (I' : img (diff i j) y').
    { intros n Nn. destruct (pair_img i j t n Nn) as [z Z]. fold y in Z. unfold y'. destruct (n =? k)%nat. exists (z + s)%Z. rewrite plus_IZR. lra. exists z. auto. }
    destruct (img_pair i j y' I') as (t' & T').
    specialize (H t'). unfold apart in H. fold y in H. assert (LE : length_of p y' = length_of p (joins p (i, j, t'))) by (apply len_ext; auto). rewrite <- LE in H.
    assert (X : length_of p y' < length_of p y); [|lra]. apply right_mono_lt.
    + intros n Nn. unfold y'. destruct (Nat.eqb_spec n k) as [->|]; lra.
    + exists k. split; auto. unfold y'. rewrite Nat.eqb_refl. auto.
  - intros H t'. apply right_mono. intros k K. destruct (IM t' k K) as [z Z]. rewrite Z. apply int_half. apply c_pos.
    rewrite AF by auto. apply (proj1 (low_half_fmod _ _ (c_pos k) (Rabs_pos _))). exact (H k K).
Qed.
End Right.

Theorem right_sym f ia ja : right_angles p -> (3 <= f)%nat -> match bond_length_atoms f b ia ja, bond_length_atoms f b ja ia with
  | Ok r, Ok r' => pd_dij r = pd_dij r' | Err e, Err e' => e = e' | _, _ => False end.
Proof.
  intros RA F.
  destruct (bad_number b ia) eqn:BI. { unfold bond_length_atoms. rewrite BI, orb_true_r. reflexivity. }
  destruct (bad_number b ja) eqn:BJ. { unfold bond_length_atoms. rewrite BJ, orb_true_r. reflexivity. }
  unfold bond_length_atoms. rewrite BI, BJ. cbn [orb]. set (i := Z.to_nat (ia - 1)). set (j := Z.to_nat (ja - 1)).
  change (fun k => pos_of b i k - pos_of b j k) with (diff i j). change (fun k => pos_of b j k - pos_of b i k) with (diff j i).
  rewrite !near_right by auto. cbn [obind pd_dij]. rewrite !(b_dist b FR GC). f_equal. fold p. apply nrm_opp. intros k K.
  rewrite <- fmod_opp by apply c_pos. unfold diff. f_equal. ring.
Qed.

(** ** atoms on a line along one edge *)
Lemma along_axis h q : (q < 3)%nat -> (forall k, (k < 3)%nat -> k <> q -> h k = 0) -> along p h h = (h q * cp_a0 p q) * (h q * cp_a0 p q).
Proof.
  intros Q Z. unfold along, dot33, metric. destruct q as [|[|[|q]]]; try lia; [rewrite (Z 1%nat), (Z 2%nat) by lia|rewrite (Z 0%nat), (Z 2%nat) by lia|rewrite (Z 0%nat), (Z 1%nat) by lia]; cbn [Nat.eqb]; ring.
Qed.
Lemma near_axis f h q : ~ right_angles p -> (q < 3)%nat -> (forall k, (k < 3)%nat -> k <> q -> fmod (h k) (c k) = 0) ->
  exists y, make_nearest (S (S (S f))) b h = Ok y /\ img h y /\ (forall k, (k < 3)%nat -> k <> q -> y k = 0) /\ Rabs (y q) <= c q / 2.
Proof.
  intros NR Q Z. pose proof (c_pos q) as CQ. pose proof (fmod_ok (h q) (c q) CQ) as (FB & _).
  assert (ZO : forall k, (k < 3)%nat -> k <> q -> octant h k = 0). { intros k K N. unfold octant. rewrite Z by auto. cbn. destruct (Rlt_dec 0 0); lra. }
  pose proof (octant_in h q) as OI. pose proof (octant_img h) as OM.
  unfold make_nearest. fold p. destruct (_ || _)%bool eqn:E.
  - assert (ZZ : forall k, (k < 3)%nat -> fmod (h k) (c k) = 0).
    { apply orb_true_iff in E. destruct E as [E|E].
      - unfold is_eq in E. repeat match type of E with context [Req_EM_T ?a ?b] => destruct (Req_EM_T a b) end; try discriminate. intros [|[|[|k]]] K; auto; lia.
      - exfalso. apply NR. unfold is_eq in E. repeat match type of E with context [Req_EM_T ?a ?b] => destruct (Req_EM_T a b) end; try discriminate. intros [|[|[|k]]] K; auto; lia. }
    eexists. split. reflexivity. split. apply fmod_img. split. intros k K _; exact (ZZ k K). change (Rabs (fmod (h q) (c q)) <= c q / 2). rewrite (ZZ q Q), Rabs_R0. lra.
  - assert (NZ : octant h q <> 0).
    { intros O. assert (F0 : fmod (h q) (c q) = 0).
      { unfold octant in O. cbn zeta in O. apply Rabs_def2 in FB. destruct (Rlt_dec _ _); lra. }
      assert (ZZ : forall k, (k < 3)%nat -> fmod (h k) (c k) = 0). { intros k K. destruct (Nat.eq_dec k q) as [->|]; auto. }
      unfold c in ZZ. unfold is_eq in E. rewrite !ZZ in E by lia. destruct (Req_EM_T 0 0); [discriminate|lra]. }
    change (fun i => if Rlt_dec 0 (fmod (h i) (IZR (cp_icc p i))) then fmod (h i) (IZR (cp_icc p i)) - IZR (cp_icc p i) else fmod (h i) (IZR (cp_icc p i))) with (octant h).
    change (if Rlt_dec 0 (fmod (h 0%nat) (IZR (cp_icc p 0))) then fmod (h 0%nat) (IZR (cp_icc p 0)) - IZR (cp_icc p 0) else fmod (h 0%nat) (IZR (cp_icc p 0))) with (octant h 0%nat).
    change (if Rlt_dec 0 (fmod (h 1%nat) (IZR (cp_icc p 1))) then fmod (h 1%nat) (IZR (cp_icc p 1)) - IZR (cp_icc p 1) else fmod (h 1%nat) (IZR (cp_icc p 1))) with (octant h 1%nat).
    change (if Rlt_dec 0 (fmod (h 2%nat) (IZR (cp_icc p 2))) then fmod (h 2%nat) (IZR (cp_icc p 2)) - IZR (cp_icc p 2) else fmod (h 2%nat) (IZR (cp_icc p 2))) with (octant h 2%nat).
    assert (LV : forall k, (k < 3)%nat -> loop_vals (S (S (S f))) (octant h k) (IZR (cp_icc p k)) = Ok (if (k =? q)%nat then [octant h k; octant h k + c k] else [0])).
    { intros k K. destruct (Nat.eqb_spec k q) as [->|N]. apply loop_two; lra. rewrite ZO by auto. apply loop_one, c_pos. }
    rewrite !LV by lia. cbn [obind].
    set (x1 := fun k => if (k =? q)%nat then octant h k + c k else octant h k).
    set (g := l_gten (bp_lat b)).
    assert (X1 : forall k, (k < 3)%nat -> k <> q -> x1 k = 0). { intros k K N. unfold x1. destruct (Nat.eqb_spec k q); auto. contradiction. }
    assert (X1q : x1 q = octant h q + c q). { unfold x1. rewrite Nat.eqb_refl. reflexivity. }
    assert (SK : forall u v, (forall k, (k < 3)%nat -> u k = v k) -> skalpro g u u = skalpro g v v).
    { intros u v U. unfold skalpro. cbn [fold_left idx3]. rewrite !U by lia. reflexivity. }
    assert (EX : exists u v, candidates (if (0 =? q)%nat then [octant h 0%nat; octant h 0%nat + c 0%nat] else [0]) (if (1 =? q)%nat then [octant h 1%nat; octant h 1%nat + c 1%nat] else [0]) (if (2 =? q)%nat then [octant h 2%nat; octant h 2%nat + c 2%nat] else [0]) = [u; v]
        /\ (forall k, (k < 3)%nat -> u k = octant h k) /\ (forall k, (k < 3)%nat -> v k = x1 k)).
    { destruct q as [|[|[|q]]]; try lia; cbn [Nat.eqb candidates flat_map map app]; do 2 eexists; (split; [reflexivity|]); split; intros [|[|[|k]]] K; try lia; try reflexivity; unfold x1; cbn [Nat.eqb]; try (rewrite ZO by lia; reflexivity); reflexivity. }
    destruct EX as (u & v & -> & U & V). cbn [fold_left]. unfold try_test at 2. rewrite (SK u (octant h) U). destruct (Rlt_dec _ _) as [L|_]; [lra|].
    unfold try_test. rewrite (SK v x1 V). unfold g. rewrite !(b_dot b FR GC). fold p. rewrite !(along_axis _ q Q) by auto. rewrite X1q.
    pose proof (edge_pos q Q) as AP.
    destruct (Rlt_dec _ _) as [L|L].
    + exists v. split; auto. split; [|split].
      * intros k K. rewrite V by auto. destruct (OM k K) as [z E']. unfold x1. destruct (k =? q)%nat. exists (z + 1)%Z. rewrite plus_IZR. lra. exists z. auto.
      * intros k K N. rewrite V by auto. auto.
      * rewrite V, X1q by auto. rewrite Rabs_right by lra. assert (A2 := Rmult_lt_0_compat _ _ AP AP). clear - L A2 CQ. set (x := octant h q) in *. set (a := cp_a0 p q) in *. apply Rnot_lt_le. intros X. assert (0 < c q * (2 * x + c q)) by (apply Rmult_lt_0_compat; lra). assert (0 < c q * (2 * x + c q) * (a * a)) by (apply Rmult_lt_0_compat; lra). lra.
    + exists (octant h). split; auto. split; auto. split; auto. rewrite Rabs_left1 by lra. assert (A2 := Rmult_lt_0_compat _ _ AP AP). clear - L A2 CQ. set (x := octant h q) in *. set (a := cp_a0 p q) in *. apply Rnot_lt_le. intros X. apply L. assert (0 < c q * (- (2 * x + c q))) by (apply Rmult_lt_0_compat; lra). assert (0 < c q * (- (2 * x + c q)) * (a * a)) by (apply Rmult_lt_0_compat; lra). lra.
Qed.
Theorem axis_shortest f ia ja i j q t0 : ~ right_angles p -> number p ia i -> number p ja j -> (3 <= f)%nat -> (q < 3)%nat ->
  (forall k, (k < 3)%nat -> k <> q -> joins p (i, j, t0) k = 0) ->
  exists r t, bond_length_atoms f b ia ja = Ok r /\ pd_dij r = Some (apart p (i, j, t)) /\
    forall t', (forall k, (k < 3)%nat -> k <> q -> joins p (i, j, t') k = 0) -> apart p (i, j, t) <= apart p (i, j, t').
Proof.
  intros NR I J F Q Z0. destruct f as [|[|[|f]]]; try lia. destruct (number_ok _ _ I) as [BI EI]. destruct (number_ok _ _ J) as [BJ EJ].
  unfold bond_length_atoms. rewrite BI, BJ, EI, EJ. cbn [orb]. change (fun k => pos_of b i k - pos_of b j k) with (diff i j).
  assert (FZ : forall k, (k < 3)%nat -> k <> q -> fmod (diff i j k) (c k) = 0).
  { intros k K N. destruct (pair_img i j t0 k K) as [z E]. rewrite Z0 in E by auto. pose proof (c_pos k) as C. destruct (fmod_ok (diff i j k) (c k) C) as (B & w & W). apply Rabs_def2 in B.
    assert (D : fmod (diff i j k) (c k) = IZR (- z - w) * c k) by (rewrite minus_IZR, opp_IZR; lra). rewrite D in B |- *.
    assert (-1 < IZR (- z - w) < 1) by nra. destruct H as [A1 A2]. apply lt_IZR in A1, A2. assert ((- z - w)%Z = 0%Z) by lia. rewrite H. ring. }
  destruct (near_axis f (diff i j) q NR Q FZ) as (y & N & IM & YZ & YQ). destruct (img_pair i j y IM) as (t & T). rewrite N. cbn [obind]. eexists. exists t. split; [reflexivity|]. cbn [pd_dij].
  rewrite (b_dist b FR GC). fold p. split. f_equal. apply len_ext. intros; apply T; auto.
  intros t' T'. apply (len_le b FR GC). fold p. rewrite !(along_axis _ q Q) by (auto; intros; rewrite <- T by auto; auto).
  apply sq_abs. rewrite !Rabs_mult. apply Rmult_le_compat_r. apply Rabs_pos. rewrite <- T by auto.
  destruct (IM q Q) as [z E]. destruct (pair_img i j t' q Q) as [w W]. replace (joins p (i, j, t') q) with (y q + IZR (w - z) * c q) by (rewrite minus_IZR; lra). apply int_half; auto. apply c_pos.
Qed.
End Near.
