(** Bond angles. *)
From Coq Require Import Ascii String List Arith ZArith Reals Bool Lia Lra.
From Verif Require Import Base MathModel MetricModel MetricSpec MetricProof SphereModel SphereSpec PdfModel PdfSpec PdfGeo PdfFinal ParserModel BondModel BondSpec BondProof BondNear.
Import ListNotations.
Local Open Scope R_scope.

Section Angle.
Variable b : bphase.
Let p := bp_ph b.
Hypothesis FR : fresh b.
Hypothesis GC : good_cell p.

Definition cos_of (x y : v3) : R := along p x y / (length_of p x * length_of p y).
Lemma cos_in x y : 0 < length_of p x -> 0 < length_of p y -> -1 <= cos_of x y <= 1.
Proof.
  intros X Y. pose proof (along_cauchy b FR GC x y) as C. fold p in C. rewrite <- !(len_sq b FR GC) in C. fold p in C.
  assert (P : 0 < length_of p x * length_of p y) by (apply Rmult_lt_0_compat; auto). set (m := length_of p x * length_of p y) in *. unfold cos_of. fold m.
  assert (S : along p x y * along p x y <= m * m) by (unfold m; lra). set (d := along p x y) in *. clearbody d m.
  assert (A : Rabs d <= m). { apply Rsqr_incr_0_var; [|lra]. unfold Rsqr. rewrite <- Rabs_mult. rewrite Rabs_right; auto. apply Rle_ge, Rle_0_sqr. }
  assert (- m <= d <= m). { unfold Rabs in A. destruct (Rcase_abs d); lra. }
  assert (E : d = d / m * m) by (field; lra). set (q := d / m) in *. clearbody q. split; apply (Rmult_le_reg_r m); lra.
Qed.
Lemma angle_value x y dx dy : 0 < length_of p x -> 0 < length_of p y -> fst (angle_of b x y dx dy) = Some (m_acosd (cos_of x y)).
Proof.
  intros X Y. pose proof (cos_in x y X Y) as C. unfold angle_of. cbn [fst]. change (nsqrt (skalpro (l_gten (bp_lat b)) x x)) with (dist_of b x). change (nsqrt (skalpro (l_gten (bp_lat b)) y y)) with (dist_of b y).
  rewrite !(b_dist b FR GC), (b_dot b FR GC). fold p. cbn [nmul ndiv]. assert (P : 0 < length_of p x * length_of p y) by (apply Rmult_lt_0_compat; auto).
  destruct (Req_EM_T _ 0); [lra|]. fold (cos_of x y). unfold nacosd. destruct (Rlt_dec _ _); [lra|]. destruct (Rlt_dec _ _); [lra|]. reflexivity.
Qed.
Lemma angle_none x y dx dy : length_of p x = 0 \/ length_of p y = 0 -> angle_of b x y dx dy = (None, None).
Proof.
  intros H. unfold angle_of. change (nsqrt (skalpro (l_gten (bp_lat b)) x x)) with (dist_of b x). change (nsqrt (skalpro (l_gten (bp_lat b)) y y)) with (dist_of b y).
  rewrite !(b_dist b FR GC). fold p. cbn [nmul ndiv]. assert (Z : length_of p x * length_of p y = 0) by (destruct H as [-> | ->]; ring).
  destruct (Req_EM_T _ 0); [|contradiction]. reflexivity.
Qed.
Lemma acosd_range x : 0 <= m_acosd x <= 180.
Proof.
  unfold m_acosd. pose proof (acos_bound x). pose proof rad_pos. unfold rad in *. split. apply Rmult_le_pos. lra. apply Rlt_le, Rinv_0_lt_compat; auto.
  apply (Rmult_le_reg_r (PI / 180)); auto. unfold Rdiv at 1. rewrite Rmult_assoc, Rinv_l by lra. lra.
Qed.

Lemma angle_ext x y dx dy x' y' : (forall k, (k < 3)%nat -> x' k = x k) -> (forall k, (k < 3)%nat -> y' k = y k) -> angle_of b x' y' dx dy = angle_of b x y dx dy.
Proof.
  intros X Y. assert (SK : forall u v u' v', (forall k, (k < 3)%nat -> u' k = u k) -> (forall k, (k < 3)%nat -> v' k = v k) -> skalpro (l_gten (bp_lat b)) u' v' = skalpro (l_gten (bp_lat b)) u v).
  { intros u v u' v' U V. unfold skalpro. cbn [fold_left idx3]. rewrite !U, !V by lia. reflexivity. }
  assert (DK : forall u v u' v' du dv, (forall k, (k < 3)%nat -> u' k = u k) -> (forall k, (k < 3)%nat -> v' k = v k) -> dskalpro (l_gten (bp_lat b)) (bp_dgten b) u' v' du dv = dskalpro (l_gten (bp_lat b)) (bp_dgten b) u v du dv).
  { intros u v u' v' du dv U V. unfold dskalpro. cbn [fold_left idx3]. rewrite !U, !V by lia. reflexivity. }
  unfold angle_of. rewrite (SK x x x' x'), (SK y y y' y'), (SK x y x' y'), (DK x x x' x'), (DK y y y' y'), (DK x y x' y') by auto. reflexivity.
Qed.

(** the images the angle is made of *)
Theorem bond_angle_ok f ia ja ka i j k : number p ia i -> number p ja j -> number p ka k -> i <> j -> i <> k -> j <> k -> (3 <= f)%nat ->
  exists t u, bond_angle f b ia ja ka = Ok (angle_of b (joins p (j, i, t)) (joins p (j, k, u)) (fun n => bp_dpos b j n + bp_dpos b i n) (fun n => bp_dpos b j n + bp_dpos b k n)) /\
  (forall r, bond_length_atoms f b ja ia = Ok r -> pd_dij r = Some (apart p (j, i, t))) /\
  (forall r, bond_length_atoms f b ja ka = Ok r -> pd_dij r = Some (apart p (j, k, u))).
Proof.
  intros I J K N1 N2 N3 F. destruct f as [|[|[|f]]]; try lia. destruct (number_ok b _ _ I) as [BI EI]. destruct (number_ok b _ _ J) as [BJ EJ]. destruct (number_ok b _ _ K) as [BK EK].
  assert (D : ((ia =? ja)%Z || (ia =? ka)%Z || (ja =? ka)%Z)%bool = false).
  { destruct I as [_ ->], J as [_ ->], K as [_ ->]. repeat (apply orb_false_iff; split); apply Z.eqb_neq; lia. }
  unfold bond_angle, bond_length_atoms. rewrite BI, BJ, BK, D, EI, EJ, EK. cbn [orb].
  change (fun n => pos_of b j n - pos_of b i n) with (diff b j i). change (fun n => pos_of b j n - pos_of b k n) with (diff b j k).
  destruct (near_ok b FR GC f (diff b j i)) as (x & NX & IX & _). destruct (near_ok b FR GC f (diff b j k)) as (y & NY & IY & _).
  destruct (img_pair b j i x IX) as (t & T). destruct (img_pair b j k y IY) as (u & U). exists t, u. rewrite NX, NY. cbn [obind]. split; [|split].
  - f_equal. apply angle_ext; auto.
  - intros r R. inversion R. cbn [pd_dij]. rewrite (b_dist b FR GC). f_equal. apply len_ext. auto.
  - intros r R. inversion R. cbn [pd_dij]. rewrite (b_dist b FR GC). f_equal. apply len_ext. auto.
Qed.
Lemma angle_bad f ia ja ka : (forall i, ~ number p ia i) \/ (forall i, ~ number p ja i) \/ (forall i, ~ number p ka i) \/ ia = ja \/ ia = ka \/ ja = ka -> bond_angle f b ia ja ka = Err ErrValue.
Proof.
  intros H. unfold bond_angle. destruct (bad_number b ia || bad_number b ja || bad_number b ka)%bool eqn:B; auto.
  apply orb_false_iff in B. destruct B as [B B3]. apply orb_false_iff in B. destruct B as [B1 B2].
  assert (E : ((ia =? ja)%Z || (ia =? ka)%Z || (ja =? ka)%Z)%bool = true); [|rewrite E; reflexivity].
  destruct H as [H|[H|[H|[->|[->| ->]]]]]; try (apply number_bad in H; congruence); rewrite Z.eqb_refl, ?orb_true_r; reflexivity.
Qed.
(** the same for the angle read from the other side *)
Lemma dsk_sym x y dx dy : (forall i j, (i < 3)%nat -> (j < 3)%nat -> bp_dgten b i j = bp_dgten b j i) ->
  dskalpro (l_gten (bp_lat b)) (bp_dgten b) x y dx dy = dskalpro (l_gten (bp_lat b)) (bp_dgten b) y x dy dx.
Proof.
  intros S. assert (G : forall i j, l_gten (bp_lat b) i j = l_gten (bp_lat b) j i) by (intros; apply (lattice_sym _ _ _ FR)).
  assert (T : forall i j, (i < 3)%nat -> (j < 3)%nat -> Rabs (dx i * y j * l_gten (bp_lat b) i j) + Rabs (x i * dy j * l_gten (bp_lat b) i j) + Rabs (x i * y j * bp_dgten b i j)
    = Rabs (dy j * x i * l_gten (bp_lat b) j i) + Rabs (y j * dx i * l_gten (bp_lat b) j i) + Rabs (y j * x i * bp_dgten b j i)).
  { intros i j I J. rewrite (G i j), (S i j) by auto. rewrite (Rmult_comm (dx i) (y j)), (Rmult_comm (x i) (dy j)), (Rmult_comm (x i) (y j)). ring. }
  unfold dskalpro. cbn [fold_left idx3]. rewrite !T by lia. ring.
Qed.
Lemma angle_of_sym x y dx dy : (forall i j, (i < 3)%nat -> (j < 3)%nat -> bp_dgten b i j = bp_dgten b j i) -> angle_of b x y dx dy = angle_of b y x dy dx.
Proof.
  intros S. unfold angle_of. rewrite (dsk_sym x y dx dy S). rewrite !(b_dot b FR GC), (along_sym b x y). fold p.
  set (xx := nsqrt (along p x x)). set (yy := nsqrt (along p y y)). replace (nmul xx yy) with (nmul yy xx) by (destruct xx, yy; cbn; auto; f_equal; ring).
  f_equal. destruct (match _ with Some a => _ | None => _ end); auto. do 2 f_equal.
  set (P := nmul (ndiv (Some 1) _) _). set (Q := nmul (ndiv _ xx) _). set (T := nmul (ndiv _ yy) _). destruct P, Q, T; cbn; auto. f_equal. ring.
Qed.
Theorem bond_angle_sym f ia ja ka : (forall i j, (i < 3)%nat -> (j < 3)%nat -> bp_dgten b i j = bp_dgten b j i) -> (3 <= f)%nat -> bond_angle f b ia ja ka = bond_angle f b ka ja ia.
Proof.
  intros S F. destruct f as [|[|[|f]]]; try lia. unfold bond_angle.
  replace (bad_number b ka || bad_number b ja || bad_number b ia)%bool with (bad_number b ia || bad_number b ja || bad_number b ka)%bool by (destruct (bad_number b ia), (bad_number b ja), (bad_number b ka); reflexivity).
  destruct (_ || _ || _)%bool; auto.
  replace ((ka =? ja)%Z || (ka =? ia)%Z || (ja =? ia)%Z)%bool with ((ia =? ja)%Z || (ia =? ka)%Z || (ja =? ka)%Z)%bool
    by (rewrite (Z.eqb_sym ka ja), (Z.eqb_sym ka ia), (Z.eqb_sym ja ia); destruct (ia =? ja)%Z, (ia =? ka)%Z, (ja =? ka)%Z; reflexivity).
  destruct (_ || _ || _)%bool; auto.
  destruct (near_ok b FR GC f (diff b (Z.to_nat (ja - 1)) (Z.to_nat (ia - 1)))) as (x & NX & _). destruct (near_ok b FR GC f (diff b (Z.to_nat (ja - 1)) (Z.to_nat (ka - 1)))) as (y & NY & _).
  unfold diff in NX, NY. rewrite NX, NY. cbn [obind]. f_equal. apply angle_of_sym; auto.
Qed.
End Angle.
