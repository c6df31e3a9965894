(** Bond lengths and angles: cases and counterexamples. *)
From Coq Require Import Ascii String List Arith ZArith Reals Bool Lia Lra Sorted.
From Verif Require Import Base MathModel MathProof MetricModel MetricSpec MetricProof SphereModel SphereSpec SphereProof PdfModel PdfSpec PdfGeo PdfFinal ParserModel ParserDeriv ElementTable ScatSpec ScatProof DerivCalc BondModel BondSpec BondProof BondNear BondAngle BondErr.
Import ListNotations.
Local Open Scope R_scope.

(** a cell with edges a and angles 90, 90 and w *)
Definition win3 (w : R) : v3 := fun k => match k with 2%nat => w | _ => 90 end.
Definition ph (a w : R) (icc : nat -> Z) (ps : list v3) : cphase :=
  mkCp (fun _ => a) (win3 w) icc (map (fun x => mkAt x (fun _ => 0) 1 (fun _ => 1)) ps) 0 0 1 0 0 1 0.
Definition bp a w icc ps dpos l dg : bphase := mkBp (ph a w icc ps) dpos (fun _ => chars "C") l dg.
Definition no_dev : nat -> v3 := fun _ _ => 0.
Definition cells (n : Z) : nat -> Z := fun k => match k with O => n | _ => 1%Z end.
Definition quad (a q : R) (h k : v3) : R := a * a * (h 0%nat * k 0%nat + h 1%nat * k 1%nat + h 2%nat * k 2%nat + q * (h 0%nat * k 1%nat + h 1%nat * k 0%nat)).

Lemma cosd120 : m_cosd 120 = - (1 / 2).
Proof. unfold m_cosd, rad. replace (PI / 180 * 120) with (2 * (PI / 3)) by field. rewrite cos_2PI3. lra. Qed.
Lemma metric3 a w q i j : m_cosd w = q -> (i < 3)%nat -> (j < 3)%nat -> metric (fun _ => a) (win3 w) i j =
  a * a * (if (i =? j)%nat then 1 else if (i + j =? 1)%nat then q else 0).
Proof.
  intros Q I J. pose proof cosd90 as C90. unfold m_cosd, rad in Q, C90. unfold metric, cell_cos, win3.
  destruct i as [|[|[|i]]], j as [|[|[|j]]]; try lia; cbn [Nat.eqb Nat.add]; rewrite ?Q, ?C90; ring.
Qed.
Lemma quad_along a w q icc ps h k : m_cosd w = q -> along (ph a w icc ps) h k = quad a q h k.
Proof.
  intros Q. unfold along, dot33. cbn [cp_a0 cp_win ph]. rewrite !(metric3 a w q) by (auto; lia). cbn [Nat.eqb Nat.add]. unfold quad. ring.
Qed.
Lemma lat3 a w q : m_cosd w = q -> q * q <= 3 / 4 -> exists l, lattice (fun _ => a) (win3 w) = Ok l.
Proof.
  intros Q B. rewrite lattice_spec. cbn [win3]. rewrite Q, cosd90. destruct (Rle_dec _ _) as [L|_]; [|eexists; reflexivity].
  exfalso. unfold gram, double_eps in L. assert (/ 67108864 < 1 / 4) by lra. lra.
Qed.
Lemma ready3 a w q n ps : m_cosd w = q -> q * q <= 3 / 4 -> 0 < w < 180 -> 1 <= a -> (q = 0 \/ 1 / 2 <= Rabs q) -> (1 <= n)%Z -> good_cell (ph a w (cells n) ps).
Proof.
  intros Q B W A T N. split; [|split].
  - cbn [cp_a0 cp_win ph win3]. pose proof cosd90 as C90. unfold m_cosd, rad in Q, C90. repeat split; try lra. rewrite Q, C90. unfold gram. lra.
  - intros i j I J D. cbn [cp_a0 cp_win ph]. rewrite (metric3 a w q) by auto. destruct (Nat.eqb_spec i j); [contradiction|]. destruct (i + j =? 1)%nat; [|left; ring].
    destruct T as [->|T]; [left; ring|right]. rewrite Rabs_mult, (Rabs_right (a * a)) by nra. unfold double_eps. assert (1 <= a * a) by nra. assert (1 * (1 / 2) <= a * a * Rabs q) by (apply Rmult_le_compat; lra). lra.
  - intros k. unfold ph, cells. cbn [cp_icc]. destruct k; lia.
Qed.
Definition at3 (x y z : R) : v3 := vec3 x y z.
Lemma num1 a w icc x y ps : number (ph a w icc (x :: y :: ps)) 1 0.
Proof. split; [cbn; lia|reflexivity]. Qed.
Lemma num2 a w icc x y ps : number (ph a w icc (x :: y :: ps)) 2 1.
Proof. split; [cbn; lia|reflexivity]. Qed.
Lemma num3 a w icc x y z ps : number (ph a w icc (x :: y :: z :: ps)) 3 2.
Proof. split; [cbn; lia|reflexivity]. Qed.
Lemma fmod_small x n : 0 < n -> - n < x < n -> fmod x n = x.
Proof.
  intros N X. unfold fmod, ztrunc. assert (E : x = x / n * n) by (field; lra). set (q := x / n) in *. assert (Q : -1 < q < 1) by nra. clearbody q. subst x.
  destruct (Rlt_dec q 0).
  - assert (zceil q = 0%Z). { unfold zceil. assert (zfloor (- q) = 0%Z) by (apply (zint _ _ (- q)); [apply SphereProof.zfloor_spec|lra]). lia. } rewrite H. ring.
  - assert (zfloor q = 0%Z) by (apply (zint _ _ q); [apply SphereProof.zfloor_spec|lra]). rewrite H. ring.
Qed.
Lemma sqrt_is x y : 0 <= y -> x = y * y -> sqrt x = y.
Proof. intros Y ->. apply sqrt_square; auto. Qed.
Lemma len3 a w q icc ps h r : m_cosd w = q -> 0 <= r -> quad a q h h = r * r -> length_of (ph a w icc ps) h = r.
Proof. intros Q R E. unfold length_of. fold (along (ph a w icc ps) h h). rewrite (quad_along a w q) by auto. apply sqrt_is; auto. Qed.

(** ** C34 *)
(** a block of two cells: the bond of length 1 through its end is missed *)
Definition block_ps : list v3 := [at3 0 0 0; at3 (19 / 10) 0 0].
Lemma known_all : known (chars "all"). Proof. left. apply same_refl. Qed.
Lemma block_misses : exists b x f0 W rv, fresh b /\ good_cell (bp_ph b) /\ x = (0%nat, 1%nat, (-1, 0, 0)%Z) /\
  asked b (chars "all") 0 /\ asked b (chars "all") 1 /\ 5 / 10 <= apart (bp_ph b) x <= 15 / 10 /\
  (forall k, (k < 3)%nat -> 0 <= at_pos (atom_no (bp_ph b) 0) k < IZR (cp_icc (bp_ph b) k) /\ 0 <= at_pos (atom_no (bp_ph b) 1) k < IZR (cp_icc (bp_ph b) k)) /\
  (forall f, (f0 <= f)%nat -> bond_length_types f b (chars "all") (chars "all") (5 / 10) (15 / 10) = Ok rv) /\
  Forall2 (entry (bp_ph b)) W rv /\ ~ In x W /\ forall r, In r rv -> ~ (pd_i r = 1%Z /\ pd_j r = 2%Z).
Proof.
  destruct (lat3 10 90 0 cosd90 ltac:(lra)) as [l L].
  set (b := bp 10 90 (cells 2) block_ps no_dev l (fun _ _ => 0)). set (x := (0%nat, 1%nat, (-1, 0, 0)%Z)).
  assert (FR : fresh b) by exact L. assert (GC : good_cell (bp_ph b)) by (apply (ready3 10 90 0); try lra; try lia; apply cosd90).
  assert (QA : forall h k, along (bp_ph b) h k = quad 10 0 h k) by (intros; apply (quad_along 10 90 0), cosd90).
  destruct (types_ok b FR GC (5 / 10) (15 / 10) (chars "all") (chars "all") known_all known_all) as (f0 & W & F & ND & SS & SO & CO & SP).
  assert (NO : forall t, ~ In (0%nat, 1%nat, t) W).
  { intros [[m n] o] X. destruct (SO _ _ _ X) as (_ & _ & [_ HI]). pose proof (SP _ _ _ X) as TR.
    pose proof (len_sq b FR GC (joins (bp_ph b) (0%nat, 1%nat, (m, n, o)))) as SQ. fold (apart (bp_ph b) (0%nat, 1%nat, (m, n, o))) in SQ. pose proof (len_nn b (joins (bp_ph b) (0%nat, 1%nat, (m, n, o)))) as NN. fold (apart (bp_ph b) (0%nat, 1%nat, (m, n, o))) in NN.
    rewrite QA in SQ. set (d := apart _ _) in *. clearbody d. unfold quad in SQ. cbn in SQ.
    assert (D2 : d * d <= 9 / 4) by nra. assert (M : (19 / 10 + 2 * IZR m) * (19 / 10 + 2 * IZR m) <= 9 / 400).
    { pose proof (Rle_0_sqr (IZR n)). pose proof (Rle_0_sqr (IZR o)). unfold Rsqr in *. lra. }
    assert (MB : -2 < IZR m < 0) by nra. destruct MB as [M1 M2]. apply lt_IZR in M1. apply (lt_IZR m 0) in M2. assert (m = (-1)%Z) by lia. subst m.
    pose proof (len_sq b FR GC (trans (bp_ph b) ((-1)%Z, n, o))) as TQ.
    pose proof (len_nn b (trans (bp_ph b) ((-1)%Z, n, o))) as TN. set (e := length_of (bp_ph b) (trans (bp_ph b) ((-1)%Z, n, o))) in *. clearbody e.
    rewrite QA in TQ. unfold quad in TQ. cbn in TQ.
    assert (E2 : 400 <= e * e). { rewrite TQ. pose proof (Rle_0_sqr (IZR n)). pose proof (Rle_0_sqr (IZR o)). unfold Rsqr in *. lra. }
    assert (BZ : circum_diameter (bp_lat b) (cp_atoms (bp_ph b)) <= 18).
    { unfold circum_diameter. cbn [cp_atoms bp_ph b bp ph block_ps map]. rewrite !(b_dot b FR GC), !QA. unfold quad. cbn [fold_left].
      assert (S3 : forall z, z = 300 -> sqrt z <= 17.4). { intros z ->. replace 17.4 with (sqrt (17.4 * 17.4)) by (apply sqrt_square; lra). apply sqrt_le_1; lra. }
      repeat match goal with |- context [sqrt ?z] => let v := fresh "v" in let Hv := fresh "Hv" in assert (Hv : sqrt z <= 17.4) by (apply S3; lra); set (v := sqrt z) in *; clearbody v end.
      unfold double_eps. repeat match goal with |- context [if Rlt_dec ?a ?b then _ else _] => destruct (Rlt_dec a b) end; lra. }
    clear - TR BZ E2 TN. nra. }
  exists b, x, f0, W, (map (made b) W). split; auto. split; auto. split; auto.
  assert (A0 : asked b (chars "all") 0) by (split; [cbn; lia|left; apply same_refl]). assert (A1 : asked b (chars "all") 1) by (split; [cbn; lia|left; apply same_refl]).
  split; auto. split; auto. split.
  - assert (apart (bp_ph b) x = 1); [|lra]. apply (len3 10 90 0). apply cosd90. lra. unfold quad. cbn. lra.
  - split. { intros [|[|[|k]]] K; try lia; cbn; lra. }
    split; auto. split.
    + clear. induction W; simpl; constructor; auto. apply made_entry.
    + split. apply NO. intros r R. apply in_map_iff in R. destruct R as ([[i j] t] & <- & IN). cbn [made pd_i pd_j]. intros [I J]. assert (i = 0%nat) by lia. assert (j = 1%nat) by lia. subst. apply (NO _ IN).
Qed.

(** ** C35 *)
(** right angles: atoms at 0.9 and 0.1 *)
Lemma wrapped_far : exists b f, fresh b /\ good_cell (bp_ph b) /\ right_angles (bp_ph b) /\ exists r x, bond_length_atoms f b 1 2 = Ok r /\ fst x = (0%nat, 1%nat) /\
  pd_dij r = Some (32 / 10) /\ apart (bp_ph b) x = 8 / 10.
Proof.
  destruct (lat3 4 90 0 cosd90 ltac:(lra)) as [l L].
  set (b := bp 4 90 (cells 1) [at3 (9 / 10) 0 0; at3 (1 / 10) 0 0] no_dev l (fun _ _ => 0)).
  assert (FR : fresh b) by exact L. assert (GC : good_cell (bp_ph b)) by (apply (ready3 4 90 0); try lra; try lia; apply cosd90).
  assert (RA : right_angles (bp_ph b)) by (intros [|[|[|k]]] K; try lia; reflexivity).
  exists b, 3%nat. split; auto. split; auto. split; auto.
  destruct (length_ok b FR GC 3 1 2 0 1 (num1 _ _ _ _ _ _) (num2 _ _ _ _ _ _) (le_n 3)) as (t & E & _ & O). specialize (O RA).
  eexists. exists (0%nat, 1%nat, (1, 0, 0)%Z). split; [exact E|]. split; auto. cbn [pd_dij]. split.
  - f_equal. assert (Z : forall k, (k < 3)%nat -> joins (bp_ph b) (0%nat, 1%nat, t) k = at3 (8 / 10) 0 0 k).
    { intros k K. rewrite O by auto. destruct k as [|[|[|k]]]; try lia; cbn; (rewrite fmod_small; [|lra|lra]); lra. }
    unfold apart. rewrite (len_ext b (at3 (8 / 10) 0 0)) by auto. apply (len3 4 90 0). apply cosd90. lra. unfold quad. cbn. lra.
  - apply (len3 4 90 0). apply cosd90. lra. unfold quad. cbn. lra.
Qed.

(** evaluation of make_nearest in a cell with an oblique angle *)
Lemma near_fold b h f : fresh b -> good_cell (bp_ph b) -> ~ right_angles (bp_ph b) -> (exists k, (k < 3)%nat /\ octant b h k <> 0) ->
  let g := l_gten (bp_lat b) in
  let lv k := if Req_EM_T (octant b h k) 0 then [0] else [octant b h k; octant b h k + IZR (cp_icc (bp_ph b) k)] in
  make_nearest (S (S (S f))) b h = Ok (fold_left (try_test g (skalpro g (octant b h) (octant b h))) (candidates (lv 0%nat) (lv 1%nat) (lv 2%nat)) (octant b h)).
Proof.
  intros FR GC NR (k0 & K0 & NZ) g lv. set (p := bp_ph b) in *.
  assert (LV : forall k, loop_vals (S (S (S f))) (octant b h k) (IZR (cp_icc p k)) = Ok (lv k)).
  { intros k. pose proof (octant_in b GC h k) as O. pose proof (c_pos b GC k) as C. fold p in O, C. unfold lv. fold p. destruct (Req_EM_T (octant b h k) 0) as [E|E]. rewrite E. apply loop_one; auto. apply loop_two; auto. lra. }
  unfold make_nearest. fold p. destruct (_ || _)%bool eqn:E.
  - exfalso. apply orb_true_iff in E. destruct E as [E|E].
    + apply NZ. unfold is_eq in E. repeat match type of E with context [Req_EM_T ?a ?b] => destruct (Req_EM_T a b) end; try discriminate.
      unfold octant. fold p. destruct k0 as [|[|[|k0]]]; try lia; match goal with H : fmod _ _ = 0 |- context [fmod (h 0%nat) _] => rewrite e | _ => idtac end; cbv zeta; rewrite ?e, ?e0, ?e1; destruct (Rlt_dec 0 0); lra.
    + apply NR. unfold is_eq in E. repeat match type of E with context [Req_EM_T ?a ?b] => destruct (Req_EM_T a b) end; try discriminate. intros [|[|[|k]]] K; auto; lia.
  - change (fun i => if Rlt_dec 0 (fmod (h i) (IZR (cp_icc p i))) then fmod (h i) (IZR (cp_icc p i)) - IZR (cp_icc p i) else fmod (h i) (IZR (cp_icc p i))) with (octant b h).
    change (if Rlt_dec 0 (fmod (h 0%nat) (IZR (cp_icc p 0))) then fmod (h 0%nat) (IZR (cp_icc p 0)) - IZR (cp_icc p 0) else fmod (h 0%nat) (IZR (cp_icc p 0))) with (octant b h 0%nat).
    change (if Rlt_dec 0 (fmod (h 1%nat) (IZR (cp_icc p 1))) then fmod (h 1%nat) (IZR (cp_icc p 1)) - IZR (cp_icc p 1) else fmod (h 1%nat) (IZR (cp_icc p 1))) with (octant b h 1%nat).
    change (if Rlt_dec 0 (fmod (h 2%nat) (IZR (cp_icc p 2))) then fmod (h 2%nat) (IZR (cp_icc p 2)) - IZR (cp_icc p 2) else fmod (h 2%nat) (IZR (cp_icc p 2))) with (octant b h 2%nat).
    rewrite !LV. reflexivity.
Qed.
Lemma octant_val b h k x n : (k < 3)%nat -> cp_icc (bp_ph b) k = 1%Z -> h k = x + IZR n -> -1 < x <= 0 -> good_cell (bp_ph b) -> octant b h k = x.
Proof.
  intros K I E X GC. symmetry. pose proof (octant_unique b GC h (fun i => if (i =? k)%nat then x else h i) k K) as U. cbv beta in U. rewrite Nat.eqb_refl in U. rewrite I in U. apply U; [|lra].
  intros i Hi. destruct (Nat.eqb_spec i k) as [->|]. exists (- n)%Z. rewrite I, opp_IZR. lra. exists 0%Z. lra.
Qed.

(** angle of 60 degrees: the distance depends on the order of the atoms *)
Lemma oblique_far : exists b f, fresh b /\ good_cell (bp_ph b) /\ exists r r' x, bond_length_atoms f b 1 2 = Ok r /\ bond_length_atoms f b 2 1 = Ok r' /\ fst x = (0%nat, 1%nat) /\
  pd_dij r = Some (36 / 10) /\ pd_dij r' = Some (4 / 10) /\ apart (bp_ph b) x = 4 / 10.
Proof.
  destruct (lat3 4 60 (1 / 2) cosd60 ltac:(lra)) as [l L].
  set (b := bp 4 60 (cells 1) [at3 0 0 0; at3 (1 / 10) (9 / 10) 0] no_dev l (fun _ _ => 0)).
  assert (FR : fresh b) by exact L. assert (GC : good_cell (bp_ph b)) by (apply (ready3 4 60 (1 / 2)); try lra; try lia; [apply cosd60|right; rewrite Rabs_right; lra]).
  assert (NR : ~ right_angles (bp_ph b)) by (intros X; specialize (X 2%nat ltac:(lia)); cbn in X; lra).
  assert (QA : forall h k, along (bp_ph b) h k = quad 4 (1 / 2) h k) by (intros; apply (quad_along 4 60 (1 / 2)), cosd60).
  assert (LN : forall h r, 0 <= r -> quad 4 (1 / 2) h h = r * r -> length_of (bp_ph b) h = r) by (intros; apply (len3 4 60 (1 / 2)); auto; apply cosd60).
  exists b, 3%nat. split; auto. split; auto.
  assert (N1 : exists y, make_nearest 3 b (fun k => pos_of b 0 k - pos_of b 1 k) = Ok y /\ length_of (bp_ph b) y = 36 / 10).
  { set (h := fun k => pos_of b 0 k - pos_of b 1 k).
    assert (O0 : octant b h 0%nat = - (1 / 10)) by (apply (octant_val b h 0 _ 0); auto; unfold h; cbn; lra).
    assert (O1 : octant b h 1%nat = - (9 / 10)) by (apply (octant_val b h 1 _ 0); auto; unfold h; cbn; lra).
    assert (O2 : octant b h 2%nat = 0) by (apply (octant_val b h 2 _ 0); auto; unfold h; cbn; lra).
    eexists. split. apply near_fold; auto. exists 0%nat. split; [lia|]. rewrite O0. lra.
    cbv beta zeta. rewrite O0, O1, O2. destruct (Req_EM_T (- (1 / 10)) 0); [lra|]. destruct (Req_EM_T (- (9 / 10)) 0); [lra|]. destruct (Req_EM_T 0 0); [|lra].
    cbn [candidates flat_map map app fold_left]. unfold try_test. rewrite !(b_dot b FR GC), !QA. unfold quad. rewrite !O0, !O1, !O2. cbn.
    repeat match goal with |- context [Rlt_dec ?u ?v] => let X := fresh in destruct (Rlt_dec u v) as [X|X]; [try (exfalso; lra)|try (exfalso; lra)] end.
    apply LN. lra. unfold quad. cbn. lra. }
  assert (N2 : exists y, make_nearest 3 b (fun k => pos_of b 1 k - pos_of b 0 k) = Ok y /\ length_of (bp_ph b) y = 4 / 10).
  { set (h := fun k => pos_of b 1 k - pos_of b 0 k).
    assert (O0 : octant b h 0%nat = - (9 / 10)) by (apply (octant_val b h 0 _ 1); auto; unfold h; cbn; lra).
    assert (O1 : octant b h 1%nat = - (1 / 10)) by (apply (octant_val b h 1 _ 1); auto; unfold h; cbn; lra).
    assert (O2 : octant b h 2%nat = 0) by (apply (octant_val b h 2 _ 0); auto; unfold h; cbn; lra).
    eexists. split. apply near_fold; auto. exists 0%nat. split; [lia|]. rewrite O0. lra.
    cbv beta zeta. rewrite O0, O1, O2. destruct (Req_EM_T (- (1 / 10)) 0); [lra|]. destruct (Req_EM_T (- (9 / 10)) 0); [lra|]. destruct (Req_EM_T 0 0); [|lra].
    cbn [candidates flat_map map app fold_left]. unfold try_test. rewrite !(b_dot b FR GC), !QA. unfold quad. rewrite !O0, !O1, !O2. cbn.
    repeat match goal with |- context [Rlt_dec ?u ?v] => let X := fresh in destruct (Rlt_dec u v) as [X|X]; [try (exfalso; lra)|try (exfalso; lra)] end.
    apply LN. lra. unfold quad. cbn. lra. }
  destruct N1 as (y1 & N1 & L1). destruct N2 as (y2 & N2 & L2).
  do 2 eexists. exists (0%nat, 1%nat, (0, -1, 0)%Z). split; [|split; [|split; [|split; [|split]]]].
  - unfold bond_length_atoms. change (bad_number b 1 || bad_number b 2)%bool with false. change (Z.to_nat (1 - 1)) with 0%nat. change (Z.to_nat (2 - 1)) with 1%nat. cbv beta iota zeta. rewrite N1. reflexivity.
  - unfold bond_length_atoms. change (bad_number b 2 || bad_number b 1)%bool with false. change (Z.to_nat (1 - 1)) with 0%nat. change (Z.to_nat (2 - 1)) with 1%nat. cbv beta iota zeta. rewrite N2. reflexivity.
  - reflexivity.
  - cbn [pd_dij]. rewrite (b_dist b FR GC), L1. reflexivity.
  - cbn [pd_dij]. rewrite (b_dist b FR GC), L2. reflexivity.
  - apply LN. lra. unfold quad. cbn. lra.
Qed.

(** edges changed by setvar since the tensors were made *)
Lemma stale_length : exists b f old, lattice old (cp_win (bp_ph b)) = Ok (bp_lat b) /\ good_cell (bp_ph b) /\ exists r, bond_length_atoms f b 1 2 = Ok r /\
  forall t, pd_dij r <> Some (apart (bp_ph b) (0%nat, 1%nat, t)).
Proof.
  destruct (lat3 4 90 0 cosd90 ltac:(lra)) as [l L].
  set (b0 := bp 4 90 (cells 1) [at3 (1 / 4) 0 0; at3 0 0 0] no_dev l (fun _ _ => 0)).
  set (b := bp 5 90 (cells 1) [at3 (1 / 4) 0 0; at3 0 0 0] no_dev l (fun _ _ => 0)).
  assert (FR : fresh b0) by exact L. assert (GC : good_cell (bp_ph b0)) by (apply (ready3 4 90 0); try lra; try lia; apply cosd90).
  assert (GC' : good_cell (bp_ph b)) by (apply (ready3 5 90 0); try lra; try lia; apply cosd90).
  assert (RA : right_angles (bp_ph b)) by (intros [|[|[|k]]] K; try lia; reflexivity).
  exists b, 3%nat, (fun _ => 4). split; auto. split; auto.
  eexists. split. { unfold bond_length_atoms. change (bad_number b 1 || bad_number b 2)%bool with false. cbv beta iota zeta. rewrite (near_right b _ _ RA). reflexivity. }
  intros t E. cbn [pd_dij] in E. unfold dist_of in E. change (bp_lat b) with (bp_lat b0) in E. fold (dist_of b0) in E.
  match type of E with nsqrt (skalpro _ ?h ?h) = _ => change (nsqrt (skalpro (l_gten (bp_lat b0)) h h)) with (dist_of b0 h) in E; rewrite (b_dist b0 FR GC) in E;
    assert (X : length_of (bp_ph b0) h = 1) end.
  { apply (len3 4 90 0). apply cosd90. lra. unfold quad. change (Z.to_nat (1 - 1)) with 0%nat. change (Z.to_nat (2 - 1)) with 1%nat. cbn. rewrite !fmod_small by lra. lra. }
  rewrite X in E. injection E as E. destruct t as [[m n] o].
  assert (S : apart (bp_ph b) (0%nat, 1%nat, (m, n, o)) * apart (bp_ph b) (0%nat, 1%nat, (m, n, o)) = quad 5 0 (joins (bp_ph b) (0%nat, 1%nat, (m, n, o))) (joins (bp_ph b) (0%nat, 1%nat, (m, n, o)))).
  { rewrite <- (quad_along 5 90 0 (cells 1) [at3 (1 / 4) 0 0; at3 0 0 0]) by apply cosd90. unfold apart. apply sqrt_sqrt. change (0 <= along (bp_ph b) (joins (bp_ph b) (0%nat, 1%nat, (m, n, o))) (joins (bp_ph b) (0%nat, 1%nat, (m, n, o)))).
    pose proof (quad_along 5 90 0 (cells 1) [at3 (1 / 4) 0 0; at3 0 0 0] (joins (bp_ph b) (0%nat, 1%nat, (m, n, o))) (joins (bp_ph b) (0%nat, 1%nat, (m, n, o))) cosd90) as QQ. change (ph 5 90 (cells 1) [at3 (1 / 4) 0 0; at3 0 0 0]) with (bp_ph b) in QQ. rewrite QQ. unfold quad.
    set (u := joins _ _). pose proof (Rle_0_sqr (u 0%nat)). pose proof (Rle_0_sqr (u 1%nat)). pose proof (Rle_0_sqr (u 2%nat)). unfold Rsqr in *. lra. }
  assert (E' : 1 = apart (bp_ph b) (0%nat, 1%nat, (m, n, o))) by exact E. rewrite <- E' in S. unfold quad in S. cbn in S.
  assert (M : (1 / 4 - IZR m) * (1 / 4 - IZR m) <= 1 / 25). { pose proof (Rle_0_sqr (IZR n)). pose proof (Rle_0_sqr (IZR o)). unfold Rsqr in *. lra. }
  assert (MB : 0 < IZR m < 1) by nra. destruct MB as [M1 M2]. apply (lt_IZR 0 m) in M1. apply (lt_IZR m 1) in M2. lia.
Qed.

(** ** C36 *)
(** the angle at an atom that coincides with an image of one of the other two *)
Lemma fmod_mult x n z : 0 < n -> x = IZR z * n -> fmod x n = 0.
Proof.
  intros N ->. unfold fmod, ztrunc. replace (IZR z * n / n) with (IZR z) by (field; lra).
  assert (F : forall w, zfloor (IZR w) = w) by (intros w; apply (zint _ _ (IZR w)); [apply SphereProof.zfloor_spec|lra]).
  destruct (Rlt_dec _ 0); [|rewrite F; ring]. unfold zceil. rewrite <- opp_IZR, F. replace (- - z)%Z with z by lia. ring.
Qed.
Lemma joins_mult b i j t k : (k < 3)%nat -> joins (bp_ph b) (i, j, t) k = 0 -> exists z, diff b i j k = IZR z * IZR (cp_icc (bp_ph b) k).
Proof.
  destruct t as [[m n] o]. intros K E. cbn in E. unfold sep in E. change (diff b i j k) with (at_pos (atom_no (bp_ph b) i) k - at_pos (atom_no (bp_ph b) j) k).
  destruct k as [|[|[|k]]]; try lia; cbn in E; [exists m|exists n|exists o]; lra.
Qed.
Lemma near_zero b f h : good_cell (bp_ph b) -> (forall k, (k < 3)%nat -> fmod (h k) (IZR (cp_icc (bp_ph b) k)) = 0) -> make_nearest f b h = Ok (fun k => fmod (h k) (IZR (cp_icc (bp_ph b) k))).
Proof.
  intros GC Z. unfold make_nearest. rewrite !Z by lia. unfold is_eq at 1 2 3. destruct (Req_EM_T 0 0); [reflexivity|lra].
Qed.
Lemma len_zero p h : (forall k, (k < 3)%nat -> h k = 0) -> length_of p h = 0.
Proof. intros Z. unfold length_of, dot33. rewrite !Z by lia. match goal with |- sqrt ?x = _ => replace x with 0 by ring end. apply sqrt_0. Qed.
Lemma coincident b f ia ja ka i j k t : fresh b -> good_cell (bp_ph b) -> number (bp_ph b) ia i -> number (bp_ph b) ja j -> number (bp_ph b) ka k ->
  i <> j -> i <> k -> j <> k -> (3 <= f)%nat -> (forall n, (n < 3)%nat -> joins (bp_ph b) (j, i, t) n = 0) \/ (forall n, (n < 3)%nat -> joins (bp_ph b) (j, k, t) n = 0) ->
  bond_angle f b ia ja ka = Ok (None, None).
Proof.
  intros FR GC I J K N1 N2 N3 F H. destruct f as [|[|[|f]]]; try lia. destruct (number_ok b _ _ I) as [BI EI]. destruct (number_ok b _ _ J) as [BJ EJ]. destruct (number_ok b _ _ K) as [BK EK].
  assert (D : ((ia =? ja)%Z || (ia =? ka)%Z || (ja =? ka)%Z)%bool = false).
  { destruct I as [_ ->], J as [_ ->], K as [_ ->]. repeat (apply orb_false_iff; split); apply Z.eqb_neq; lia. }
  unfold bond_angle. rewrite BI, BJ, BK, D, EI, EJ, EK. cbn [orb].
  change (fun n => pos_of b j n - pos_of b i n) with (diff b j i). change (fun n => pos_of b j n - pos_of b k n) with (diff b j k).
  assert (G : forall l, (forall n, (n < 3)%nat -> joins (bp_ph b) (j, l, t) n = 0) -> forall n, (n < 3)%nat -> fmod (diff b j l n) (IZR (cp_icc (bp_ph b) n)) = 0).
  { intros l HL n Hn. destruct (joins_mult b j l t n Hn (HL n Hn)) as [z Z]. eapply fmod_mult; eauto. apply (c_pos b GC). }
  destruct H as [H|H]; pose proof (G _ H) as Z; rewrite (near_zero b (S (S (S f))) _ GC Z).
  - destruct (near_ok b FR GC f (diff b j k)) as (y & NY & _). rewrite NY. cbn [obind]. f_equal. apply (angle_none b FR GC). left. apply len_zero; auto.
  - destruct (near_ok b FR GC f (diff b j i)) as (y & NY & _). rewrite NY. cbn [obind]. f_equal. apply (angle_none b FR GC). right. apply len_zero; auto.
Qed.

Definition cube (ps : list v3) (dpos : nat -> v3) (l : lattice_t) (dg : t33) : bphase := bp 4 90 (cells 1) ps dpos l dg.
Lemma cube_ok ps dpos l dg : lattice (fun _ => 4) (win3 90) = Ok l -> fresh (cube ps dpos l dg) /\ good_cell (bp_ph (cube ps dpos l dg)) /\ right_angles (bp_ph (cube ps dpos l dg)).
Proof.
  intros L. split; [exact L|]. split. apply (ready3 4 90 0); try lra; try lia; apply cosd90. intros [|[|[|k]]] K; try lia; reflexivity.
Qed.
Lemma cube_along ps dpos l dg h k : along (bp_ph (cube ps dpos l dg)) h k = 16 * (h 0%nat * k 0%nat + h 1%nat * k 1%nat + h 2%nat * k 2%nat).
Proof. unfold cube, bp. cbn [bp_ph]. rewrite (quad_along 4 90 0) by apply cosd90. unfold quad. ring. Qed.
Lemma cube_len ps dpos l dg h r : 0 <= r -> 16 * (h 0%nat * h 0%nat + h 1%nat * h 1%nat + h 2%nat * h 2%nat) = r * r -> length_of (bp_ph (cube ps dpos l dg)) h = r.
Proof. intros R E. apply (len3 4 90 0). apply cosd90. auto. unfold quad. lra. Qed.
Lemma cube_angle p1 p2 p3 dpos l dg x y : lattice (fun _ => 4) (win3 90) = Ok l -> (forall k, (k < 3)%nat -> x k = p2 k - p1 k /\ -1 < x k < 1) -> (forall k, (k < 3)%nat -> y k = p2 k - p3 k /\ -1 < y k < 1) ->
  let b := cube [p1; p2; p3] dpos l dg in
  bond_angle 3 b 1 2 3 = Ok (angle_of b x y (fun n => dpos 1%nat n + dpos 0%nat n) (fun n => dpos 1%nat n + dpos 2%nat n)).
Proof.
  intros L X Y b. destruct (cube_ok [p1; p2; p3] dpos l dg L) as (FR & GC & RA). fold b in FR, GC, RA.
  unfold bond_angle. change (bad_number b 1 || bad_number b 2 || bad_number b 3)%bool with false. change ((1 =? 2)%Z || (1 =? 3)%Z || (2 =? 3)%Z)%bool with false.
  change (Z.to_nat (1 - 1)) with 0%nat. change (Z.to_nat (2 - 1)) with 1%nat. change (Z.to_nat (3 - 1)) with 2%nat. cbv beta iota zeta. rewrite !(near_right b _ _ RA). cbn [obind]. f_equal. apply angle_ext.
  - intros k K. destruct (X k K) as [E B]. transitivity (fmod (x k) 1). rewrite E. destruct k as [|[|[|k]]]; try lia; reflexivity. apply fmod_small; lra.
  - intros k K. destruct (Y k K) as [E B]. transitivity (fmod (y k) 1). rewrite E. destruct k as [|[|[|k]]]; try lia; reflexivity. apply fmod_small; lra.
Qed.
Ltac three := intros [|[|[|k]]] K; try lia; cbn; lra.

(** two atoms in the same place *)
Lemma angle_nan : exists b f, fresh b /\ good_cell (bp_ph b) /\ natoms (bp_ph b) = 3%nat /\ bond_angle f b 1 2 3 = Ok (None, None).
Proof.
  destruct (lat3 4 90 0 cosd90 ltac:(lra)) as [l L]. set (b := cube [at3 0 0 0; at3 0 0 0; at3 (1 / 4) 0 0] no_dev l (fun _ _ => 0)).
  destruct (cube_ok [at3 0 0 0; at3 0 0 0; at3 (1 / 4) 0 0] no_dev l (fun _ _ => 0) L) as (FR & GC & RA). fold b in FR, GC, RA.
  exists b, 3%nat. split; auto. split; auto. split; auto.
  apply (coincident b 3 1 2 3 0 1 2 (0, 0, 0)%Z FR GC); auto; try (split; [cbn; lia|reflexivity]).
  left. intros n Hn. destruct n as [|[|[|n]]]; try lia; cbn; lra.
Qed.

(** atoms on a line with the vertex between them: no standard deviation *)
Lemma straight : exists b f, fresh b /\ good_cell (bp_ph b) /\ natoms (bp_ph b) = 3%nat /\ bond_angle f b 1 2 3 = Ok (Some 180, None).
Proof.
  destruct (lat3 4 90 0 cosd90 ltac:(lra)) as [l L]. set (b := cube [at3 0 0 0; at3 (1 / 4) 0 0; at3 (1 / 2) 0 0] no_dev l (fun _ _ => 0)).
  destruct (cube_ok [at3 0 0 0; at3 (1 / 4) 0 0; at3 (1 / 2) 0 0] no_dev l (fun _ _ => 0) L) as (FR & GC & RA). fold b in FR, GC, RA.
  exists b, 3%nat. split; auto. split; auto. split; auto.
  assert (A : bond_angle 3 b 1 2 3 = Ok (angle_of b (at3 (1 / 4) 0 0) (at3 (- (1 / 4)) 0 0) (fun n => no_dev 1%nat n + no_dev 0%nat n) (fun n => no_dev 1%nat n + no_dev 2%nat n))) by (exact (cube_angle (at3 0 0 0) (at3 (1 / 4) 0 0) (at3 (1 / 2) 0 0) no_dev l (fun _ _ => 0) (at3 (1 / 4) 0 0) (at3 (- (1 / 4)) 0 0) L ltac:(three) ltac:(three))). rewrite A. clear A. f_equal.
  assert (XL : length_of (bp_ph b) (at3 (1 / 4) 0 0) = 1) by (apply cube_len; cbn; lra). assert (YL : length_of (bp_ph b) (at3 (- (1 / 4)) 0 0) = 1) by (apply cube_len; cbn; lra).
  assert (CS : cos_of b (at3 (1 / 4) 0 0) (at3 (- (1 / 4)) 0 0) = -1). { unfold cos_of. rewrite XL, YL. unfold b at 1. rewrite cube_along. cbn. field. }
  rewrite (surjective_pairing (angle_of _ _ _ _ _)). f_equal.
  - rewrite (angle_value b FR GC) by lra. rewrite CS. f_equal. unfold m_acosd, rad. replace (-1) with (- (1)) by ring. rewrite acos_opp, acos_1. pose proof PI_RGT_0. field. lra.
  - unfold angle_of. cbn [snd]. change (nsqrt (skalpro (l_gten (bp_lat b)) (at3 (1 / 4) 0 0) (at3 (1 / 4) 0 0))) with (dist_of b (at3 (1 / 4) 0 0)). change (nsqrt (skalpro (l_gten (bp_lat b)) (at3 (- (1 / 4)) 0 0) (at3 (- (1 / 4)) 0 0))) with (dist_of b (at3 (- (1 / 4)) 0 0)).
    rewrite !(b_dist b FR GC), (b_dot b FR GC), XL, YL. unfold b at 1 2 3 4 5. rewrite !cube_along. cbn [nmul ndiv]. destruct (Req_EM_T (1 * 1) 0); [lra|].
    set (q := _ / (1 * 1)). assert (Q : q = -1) by (unfold q; cbn; field). clearbody q. subst q. unfold is_eq. destruct (Req_EM_T (-1) 1); [lra|]. cbn [nsub nmul nsqrt']. unfold nsqrt. destruct (Rlt_dec (1 - -1 * -1) 0); [lra|].
    replace (1 - -1 * -1) with 0 by ring. rewrite sqrt_0. cbn [ndiv]. destruct (Req_EM_T 0 0); [|lra]. reflexivity.
Qed.

(** the angle is not made of the shortest images *)
Lemma angle_far : exists b f t u, fresh b /\ good_cell (bp_ph b) /\ natoms (bp_ph b) = 3%nat /\ (exists d, bond_angle f b 1 2 3 = Ok (Some 0, d)) /\
  (forall t', apart (bp_ph b) (1%nat, 0%nat, t) <= apart (bp_ph b) (1%nat, 0%nat, t')) /\ (forall u', apart (bp_ph b) (1%nat, 2%nat, u) <= apart (bp_ph b) (1%nat, 2%nat, u')) /\
  forall c, angle_at (bp_ph b) c (1%nat, 0%nat, t) (1%nat, 2%nat, u) 0 = 180.
Proof.
  destruct (lat3 4 90 0 cosd90 ltac:(lra)) as [l L]. set (b := cube [at3 (9 / 10) 0 0; at3 (1 / 10) 0 0; at3 (2 / 10) 0 0] no_dev l (fun _ _ => 0)).
  destruct (cube_ok [at3 (9 / 10) 0 0; at3 (1 / 10) 0 0; at3 (2 / 10) 0 0] no_dev l (fun _ _ => 0) L) as (FR & GC & RA). fold b in FR, GC, RA.
  exists b, 3%nat, (-1, 0, 0)%Z, (0, 0, 0)%Z. split; auto. split; auto. split; auto.
  assert (MIN : forall h r, (forall k, (k < 3)%nat -> Rabs (h k) <= Rabs (r k)) -> length_of (bp_ph b) h <= length_of (bp_ph b) r) by (intros; apply (right_mono b FR GC RA); auto).
  split; [|split; [|split]].
  - assert (A : bond_angle 3 b 1 2 3 = Ok (angle_of b (at3 (- (8 / 10)) 0 0) (at3 (- (1 / 10)) 0 0) (fun n => no_dev 1%nat n + no_dev 0%nat n) (fun n => no_dev 1%nat n + no_dev 2%nat n))) by (exact (cube_angle (at3 (9 / 10) 0 0) (at3 (1 / 10) 0 0) (at3 (2 / 10) 0 0) no_dev l (fun _ _ => 0) (at3 (- (8 / 10)) 0 0) (at3 (- (1 / 10)) 0 0) L ltac:(three) ltac:(three))). rewrite A. clear A.
    assert (XL : length_of (bp_ph b) (at3 (- (8 / 10)) 0 0) = 32 / 10) by (apply cube_len; cbn; lra). assert (YL : length_of (bp_ph b) (at3 (- (1 / 10)) 0 0) = 4 / 10) by (apply cube_len; cbn; lra).
    assert (CS : cos_of b (at3 (- (8 / 10)) 0 0) (at3 (- (1 / 10)) 0 0) = 1). { unfold cos_of. rewrite XL, YL. unfold b at 1. rewrite cube_along. cbn. field. }
    rewrite (surjective_pairing (angle_of _ _ _ _ _)). eexists. f_equal. f_equal. rewrite (angle_value b FR GC) by lra. rewrite CS. f_equal. unfold m_acosd. rewrite acos_1. pose proof rad_pos. field. lra.
  - intros [[m n] o]. apply MIN. intros k K. pose proof (int_half (2 / 10) 1 (- m - 1) ltac:(lra)) as H. rewrite Rabs_right in H by lra. specialize (H ltac:(lra)). rewrite minus_IZR, opp_IZR in H.
    destruct k as [|[|[|k]]]; try lia; cbn.
    + rewrite (Rabs_right (1 / 10 - (9 / 10 + -1 * 1))) by lra. replace (1 / 10 - (9 / 10 + IZR m * 1)) with (2 / 10 + (- IZR m - 1) * 1) by lra. lra.
    + replace (0 - (0 + 0 * 1)) with 0 by ring. rewrite Rabs_R0. apply Rabs_pos.
    + replace (0 - (0 + 0 * 1)) with 0 by ring. rewrite Rabs_R0. apply Rabs_pos.
  - intros [[m n] o]. apply MIN. intros k K. pose proof (int_half (- (1 / 10)) 1 (- m) ltac:(lra)) as H. rewrite Rabs_left in H by lra. specialize (H ltac:(lra)). rewrite opp_IZR in H.
    destruct k as [|[|[|k]]]; try lia; cbn.
    + rewrite (Rabs_left (1 / 10 - (2 / 10 + 0 * 1))) by lra. replace (1 / 10 - (2 / 10 + IZR m * 1)) with (- (1 / 10) + - IZR m * 1) by lra. lra.
    + replace (0 - (0 + 0 * 1)) with 0 by ring. rewrite Rabs_R0. apply Rabs_pos.
    + replace (0 - (0 + 0 * 1)) with 0 by ring. rewrite Rabs_R0. apply Rabs_pos.
  - intros [[ea ew] ep]. unfold angle_at, apart_at.
    assert (D : forall x y, dot33 (metric_at (bp_ph b) (ea, ew, ep) 0) (joins_at (bp_ph b) (ea, ew, ep) x 0) (joins_at (bp_ph b) (ea, ew, ep) y 0) = along (bp_ph b) (joins (bp_ph b) x) (joins (bp_ph b) y)).
    { intros [[i j] t] [[i' j'] t']. unfold along, metric_at, joins_at, dot33. cbn [fst snd]. unfold metric, cell_cos. cbn [Nat.eqb Nat.add]. rewrite !sum0. reflexivity. }
    rewrite !D. unfold b. rewrite !cube_along. cbn [joins sep].
    match goal with |- acos ?z * _ = _ => assert (Z : z = -1) end.
    { cbn. repeat match goal with |- context [sqrt ?z] => (assert_fails (is_var z)); let v := fresh "v" in first [assert (v : sqrt z = 8 / 10) by (apply sqrt_is; lra) | assert (v : sqrt z = 4 / 10) by (apply sqrt_is; lra)]; rewrite v; clear v end. lra. }
    rewrite Z. replace (-1) with (- (1)) by ring. rewrite acos_opp, acos_1. pose proof PI_RGT_0. field. lra.
Qed.

(** ** standard deviations *)
Lemma uniq f x l1 l2 : derivable_pt_lim f x l1 -> derivable_pt_lim f x l2 -> l1 = l2.
Proof. apply uniqueness_limite. Qed.
(** an angle of 120 degrees: the standard deviation of the distance is too small *)
Definition dev2 : v3 := fun k => match k with 2%nat => 0 | _ => 1 / 100 end.
Ltac abs0 := repeat match goal with |- context [Rabs ?z] =>
  first [replace (Rabs z) with 0 by (replace z with 0 by ring; symmetry; apply Rabs_R0) | rewrite (Rabs_right z) by lra | rewrite (Rabs_left z) by lra] end.
Lemma obtuse_small : exists b da dw x f r, fresh b /\ good_cell (bp_ph b) /\ fresh_err b da dw /\ no_tiny_err (bp_ph b) da dw /\
  bond_length_atoms f b 1 2 = Ok r /\ fst x = (0%nat, 1%nat) /\ pd_dij r = Some (apart (bp_ph b) x) /\ 0 < apart (bp_ph b) x /\
  ~ covers b da dw (fun c => apart_at (bp_ph b) c x) (pd_ddij r).
Proof.
  destruct (lat3 4 120 (- (1 / 2)) cosd120 ltac:(lra)) as [l L]. set (da := dev2). set (dw := fun _ : nat => 0).
  set (b := bp 4 120 (cells 1) [at3 (1 / 4) 0 0; at3 0 (1 / 4) 0] no_dev l (dtensor (fun _ => 4) (win3 120) da dw)).
  assert (FR : fresh b) by exact L. assert (GC : good_cell (bp_ph b)) by (apply (ready3 4 120 (- (1 / 2))); try lra; try lia; [apply cosd120|right; rewrite Rabs_left; lra]).
  assert (NR : ~ right_angles (bp_ph b)) by (intros X; specialize (X 2%nat ltac:(lia)); cbn in X; lra).
  assert (QA : forall h k, along (bp_ph b) h k = quad 4 (- (1 / 2)) h k) by (intros; apply (quad_along 4 120 (- (1 / 2))), cosd120).
  set (x := (0%nat, 1%nat, (0, 0, 0)%Z)). set (v := at3 (1 / 4) (- (1 / 4)) 0).
  assert (AX : apart (bp_ph b) x = sqrt 3). { unfold apart, length_of. f_equal. change (along (bp_ph b) (joins (bp_ph b) x) (joins (bp_ph b) x) = 3). rewrite QA. unfold quad. cbn. lra. }
  assert (S3 : 0 < sqrt 3) by (apply sqrt_lt_R0; lra). assert (SS : sqrt 3 * sqrt 3 = 3) by (apply sqrt_sqrt; lra).
  assert (N1 : exists y, make_nearest 3 b (fun k => pos_of b 0 k - pos_of b 1 k) = Ok y /\ y 0%nat = 1 / 4 /\ y 1%nat = - (1 / 4) /\ y 2%nat = 0).
  { set (h := fun k => pos_of b 0 k - pos_of b 1 k).
    assert (O0 : octant b h 0%nat = - (3 / 4)) by (apply (octant_val b h 0 _ 1); auto; unfold h; cbn; lra).
    assert (O1 : octant b h 1%nat = - (1 / 4)) by (apply (octant_val b h 1 _ 0); auto; unfold h; cbn; lra).
    assert (O2 : octant b h 2%nat = 0) by (apply (octant_val b h 2 _ 0); auto; unfold h; cbn; lra).
    eexists. split. apply near_fold; auto. exists 0%nat. split; [lia|]. rewrite O0. lra.
    cbv beta zeta. rewrite O0, O1, O2. destruct (Req_EM_T (- (3 / 4)) 0); [lra|]. destruct (Req_EM_T (- (1 / 4)) 0); [lra|]. destruct (Req_EM_T 0 0); [|lra].
    cbn [candidates flat_map map app fold_left]. unfold try_test. rewrite !(b_dot b FR GC), !QA. unfold quad. rewrite !O0, !O1, !O2. cbn.
    repeat match goal with |- context [Rlt_dec ?u ?v] => let X := fresh in destruct (Rlt_dec u v) as [X|X]; [try (exfalso; lra)|try (exfalso; lra)] end.
    repeat split; lra. }
  destruct N1 as (y & N1 & Y0 & Y1 & Y2).
  assert (YA : along (bp_ph b) y y = 3) by (rewrite QA; unfold quad; rewrite Y0, Y1, Y2; lra).
  assert (YD : dist_of b y = Some (sqrt 3)) by (rewrite (b_dist b FR GC); unfold length_of; fold (along (bp_ph b) y y); rewrite YA; reflexivity).
  exists b, da, dw, x, 3%nat. eexists. split; auto. split; auto. split; [reflexivity|]. split; [|split; [|split; [|split; [|split]]]].
  - intros i j I J D. cbn [cp_a0 cp_win bp_ph b bp ph]. pose proof cosd90 as C90. pose proof cosd120 as C120. unfold m_cosd, rad in C90, C120. unfold dw, da, dev2, win3, double_eps.
    destruct i as [|[|[|i]]], j as [|[|[|j]]]; try lia; cbn [Nat.add Nat.sub]; rewrite ?C90, ?C120; try (left; ring); right; rewrite Rabs_left; lra.
  - unfold bond_length_atoms. change (bad_number b 1 || bad_number b 2)%bool with false. change (Z.to_nat (1 - 1)) with 0%nat. change (Z.to_nat (2 - 1)) with 1%nat. cbv beta iota zeta. rewrite N1. reflexivity.
  - reflexivity.
  - cbn [pd_dij]. rewrite YD, AX. reflexivity.
  - rewrite AX. auto.
  - cbn [pd_ddij]. unfold ddist_of. rewrite YD. destruct (Rlt_dec 0 (sqrt 3)); [|lra]. intros CV.
    assert (DS : dskalpro (l_gten (bp_lat b)) (bp_dgten b) y y (fun k => bp_dpos b 0 k + bp_dpos b 1 k) (fun k => bp_dpos b 0 k + bp_dpos b 1 k) = 1 / 100).
    { unfold dskalpro. cbn [fold_left idx3]. rewrite Y0, Y1, Y2. cbn [bp_dpos bp_dgten b bp]. unfold dtensor, no_dev. cbn [Nat.eqb Nat.add Nat.sub]. cbn [win3]. rewrite cosd120, cosd90. unfold dw, da, dev2, double_eps.
      repeat match goal with |- context [Rlt_dec ?u ?v] => destruct (Rlt_dec u v) as [?|?X]; [|exfalso; lra] end.
      abs0. lra. }
    rewrite DS in CV. destruct (CV (da, dw, fun _ _ => 0)) as (d & D1 & D2).
    + split. intros k K. unfold da, dw, dev2. rewrite Rabs_R0. destruct k as [|[|[|k]]]; try lia; (split; [|lra]); rewrite ?Rabs_R0, ?Rabs_right; lra. intros i k K. rewrite Rabs_R0. unfold b, bp, no_dev; cbn. lra.
    + assert (D3 : derivable_pt_lim (apart_at (bp_ph b) (da, dw, fun _ _ => 0) x) 0 (sqrt 3 / 400)).
      { apply (dl_local (fun s => (4 + s * (1 / 100)) * (sqrt 3 / 4)) _ 0 _ 1). lra.
        - intros s Hs. apply Rabs_def2 in Hs. unfold apart_at. symmetry. apply sqrt_is. apply Rmult_le_pos; lra.
          transitivity (quad (4 + s * (1 / 100)) (- (1 / 2)) v v).
          + unfold metric_at, joins_at, dot33, metric, cell_cos, quad. cbn [fst snd Nat.eqb Nat.add]. pose proof cosd90 as C90. pose proof cosd120 as C120. unfold m_cosd, rad in C90, C120. cbn [cp_a0 cp_win bp_ph b bp ph win3 dw da dev2]. unfold dw, da, dev2. rewrite !Rmult_0_r, !Rplus_0_r. rewrite C90, C120. cbn. lra.
          + unfold quad, v. cbn. transitivity ((4 + s * (1 / 100)) * (4 + s * (1 / 100)) * (sqrt 3 * sqrt 3) / 16); [rewrite SS|]; field.
        - eapply dl_eq. apply (dmc (sqrt 3 / 4) (fun s => 4 + s * (1 / 100))). apply dlin. field. }
      rewrite (uniq _ _ _ _ D1 D3) in D2. rewrite Rabs_right in D2 by lra. clear - D2 S3 SS.
      apply (Rmult_le_compat_r (sqrt 3)) in D2; [|lra]. replace (1 / 2 / sqrt 3 * (1 / 100) * sqrt 3) with (1 / 200) in D2 by (field; lra). lra.
Qed.

(** an angle of 135 degrees: the standard deviation of the angle is reported as 0 *)
Definition dev_of3 : nat -> v3 := fun i k => match i, k with 2%nat, 0%nat => 1 / 100 | 2%nat, 1%nat => 1 / 100 | _, _ => 0 end.
Lemma acos_neg_half : acos (- (1 / sqrt 2)) = 3 * PI / 4.
Proof.
  rewrite acos_opp. replace (1 / sqrt 2) with (cos (PI / 4)) by apply cos_PI4. rewrite acos_cos. field. pose proof PI_RGT_0. lra.
Qed.
Lemma cube_dg dw : dtensor (fun _ => 4) (win3 90) (fun _ => 0) (fun _ => 0) = dw -> forall i j, (i < 3)%nat -> (j < 3)%nat -> dw i j = 0.
Proof.
  intros <- i j I J. unfold dtensor, double_eps. destruct (i =? j)%nat; [ring|].
  match goal with |- context [Rlt_dec ?u ?v] => destruct (Rlt_dec u v) as [H|H]; [reflexivity|ring] end.
Qed.
Lemma angle_small : exists b da dw x y f ang dang, fresh b /\ good_cell (bp_ph b) /\ fresh_err b da dw /\ no_obtuse (bp_ph b) /\ no_tiny_err (bp_ph b) da dw /\
  bond_angle f b 1 2 3 = Ok (Some ang, Some dang) /\ fst x = (1%nat, 0%nat) /\ fst y = (1%nat, 2%nat) /\
  (forall c, angle_at (bp_ph b) c x y 0 = ang) /\ 0 < ang < 180 /\ ~ covers b da dw (fun c => angle_at (bp_ph b) c x y) dang.
Proof.
  destruct (lat3 4 90 0 cosd90 ltac:(lra)) as [l L]. set (z := fun _ : nat => 0). set (dg := dtensor (fun _ => 4) (win3 90) z z).
  set (ps := [at3 (1 / 4) (1 / 2) 0; at3 (1 / 2) (1 / 2) 0; at3 (3 / 4) (1 / 4) 0]). set (b := cube ps dev_of3 l dg).
  destruct (cube_ok ps dev_of3 l dg L) as (FR & GC & RA). fold b in FR, GC, RA.
  pose proof (cube_dg dg eq_refl) as DG.
  set (u := at3 (1 / 4) 0 0). set (v := at3 (- (1 / 4)) (1 / 4) 0).
  set (x := (1%nat, 0%nat, (0, 0, 0)%Z)). set (y := (1%nat, 2%nat, (0, 0, 0)%Z)).
  assert (S2 : 0 < sqrt 2) by (apply sqrt_lt_R0; lra). assert (SS : sqrt 2 * sqrt 2 = 2) by (apply sqrt_sqrt; lra).
  assert (A : bond_angle 3 b 1 2 3 = Ok (angle_of b u v (fun n => dev_of3 1%nat n + dev_of3 0%nat n) (fun n => dev_of3 1%nat n + dev_of3 2%nat n)))
    by (exact (cube_angle (at3 (1 / 4) (1 / 2) 0) (at3 (1 / 2) (1 / 2) 0) (at3 (3 / 4) (1 / 4) 0) dev_of3 l dg u v L ltac:(three) ltac:(three))).
  assert (XL : length_of (bp_ph b) u = 1) by (apply cube_len; cbn; lra). assert (YL : length_of (bp_ph b) v = sqrt 2) by (apply cube_len; [lra|rewrite SS; cbn; lra]).
  assert (CS : cos_of b u v = - (1 / sqrt 2)). { unfold cos_of. rewrite XL, YL. unfold b at 1. rewrite cube_along. cbn. field. lra. }
  assert (AN : fst (angle_of b u v (fun n => dev_of3 1%nat n + dev_of3 0%nat n) (fun n => dev_of3 1%nat n + dev_of3 2%nat n)) = Some 135).
  { rewrite (angle_value b FR GC) by lra. rewrite CS. f_equal. unfold m_acosd, rad. rewrite acos_neg_half. pose proof PI_RGT_0. field. lra. }
  assert (DN : snd (angle_of b u v (fun n => dev_of3 1%nat n + dev_of3 0%nat n) (fun n => dev_of3 1%nat n + dev_of3 2%nat n)) = Some 0).
  { unfold angle_of. cbn [snd]. change (nsqrt (skalpro (l_gten (bp_lat b)) u u)) with (dist_of b u). change (nsqrt (skalpro (l_gten (bp_lat b)) v v)) with (dist_of b v).
    rewrite !(b_dist b FR GC), (b_dot b FR GC), XL, YL.
    assert (GE : forall i j, (i < 3)%nat -> (j < 3)%nat -> l_gten (bp_lat b) i j = if (i =? j)%nat then 16 else 0).
    { intros i j I J. rewrite (b_el b FR GC) by auto. unfold b. cbn [bp_ph cube bp cp_a0 cp_win ph]. rewrite (metric3 4 90 0) by (auto using cosd90). destruct (i =? j)%nat; [ring|]. destruct (_ =? _)%nat; ring. }
    assert (D1 : dskalpro (l_gten (bp_lat b)) (bp_dgten b) u v (fun n => dev_of3 1%nat n + dev_of3 0%nat n) (fun n => dev_of3 1%nat n + dev_of3 2%nat n) = 4 / 100).
    { unfold dskalpro. cbn [fold_left idx3]. rewrite !GE by lia. change (bp_dgten b) with dg. rewrite !DG by lia. cbn [Nat.eqb u v at3 vec3 dev_of3]. abs0. lra. }
    assert (D2 : dskalpro (l_gten (bp_lat b)) (bp_dgten b) v v (fun n => dev_of3 1%nat n + dev_of3 2%nat n) (fun n => dev_of3 1%nat n + dev_of3 2%nat n) = 16 / 100).
    { unfold dskalpro. cbn [fold_left idx3]. rewrite !GE by lia. change (bp_dgten b) with dg. rewrite !DG by lia. cbn [Nat.eqb u v at3 vec3 dev_of3]. abs0. lra. }
    assert (D3 : dskalpro (l_gten (bp_lat b)) (bp_dgten b) u u (fun n => dev_of3 1%nat n + dev_of3 0%nat n) (fun n => dev_of3 1%nat n + dev_of3 0%nat n) = 0).
    { unfold dskalpro. cbn [fold_left idx3]. rewrite !GE by lia. change (bp_dgten b) with dg. rewrite !DG by lia. cbn [Nat.eqb u v at3 vec3 dev_of3]. abs0. lra. }
    rewrite D1, D2, D3. cbn [nmul ndiv]. destruct (Req_EM_T (1 * sqrt 2) 0); [lra|]. destruct (Req_EM_T 1 0); [lra|]. destruct (Req_EM_T (sqrt 2) 0); [lra|].
    assert (QQ : along (bp_ph b) u v / (1 * sqrt 2) = - (1 / sqrt 2)). { unfold b. rewrite cube_along. cbn. field. lra. }
    rewrite QQ. unfold is_eq. assert (P : 0 < 1 / sqrt 2) by (apply Rdiv_lt_0_compat; lra). destruct (Req_EM_T (- (1 / sqrt 2)) 1); [lra|].
    cbn [nsub nmul nsqrt']. assert (H : 1 - - (1 / sqrt 2) * - (1 / sqrt 2) = 1 / 2). { transitivity (1 - 1 / (sqrt 2 * sqrt 2)). field. lra. rewrite SS. field. }
    rewrite H. unfold nsqrt. destruct (Rlt_dec (1 / 2) 0); [lra|]. assert (Q : 0 < sqrt (1 / 2)) by (apply sqrt_lt_R0; lra). cbn [ndiv]. destruct (Req_EM_T (sqrt (1 / 2)) 0); [lra|]. pose proof rad_pos. destruct (Req_EM_T rad 0); [lra|].
    destruct (Req_EM_T 1 0); [lra|]. destruct (Req_EM_T (sqrt 2) 0); [lra|]. cbn [nadd nmul nabs ndiv]. destruct (Req_EM_T rad 0); [lra|]. cbn [nadd nmul nabs ndiv]. f_equal.
    match goal with |- Rabs (_ * ?w) = 0 => assert (W : w = 0) end. { transitivity (4 / 100 / sqrt 2 - 16 / 100 * (1 / 2) / (sqrt 2 * sqrt 2) / sqrt 2). field. lra. rewrite SS. field. lra. }
    rewrite W, Rmult_0_r. apply Rabs_R0. }
  exists b, z, z, x, y, 3%nat, 135, 0. split; auto. split; auto. split; [reflexivity|]. split; [|split; [|split; [|split; [|split; [|split; [|split]]]]]]; auto.
  - intros k K. rewrite RA by auto. lra.
  - intros i j I J D. left. unfold z. ring.
  - rewrite A, (surjective_pairing (angle_of _ _ _ _ _)), AN, DN. reflexivity.
  - intros [[ea ew] ep]. unfold angle_at, apart_at.
    assert (D : forall x y, dot33 (metric_at (bp_ph b) (ea, ew, ep) 0) (joins_at (bp_ph b) (ea, ew, ep) x 0) (joins_at (bp_ph b) (ea, ew, ep) y 0) = along (bp_ph b) (joins (bp_ph b) x) (joins (bp_ph b) y)).
    { intros [[i j] t] [[i' j'] t']. unfold along, metric_at, joins_at, dot33. cbn [fst snd]. unfold metric, cell_cos. cbn [Nat.eqb Nat.add]. rewrite !sum0. reflexivity. }
    rewrite !D. replace (along (bp_ph b) (joins (bp_ph b) x) (joins (bp_ph b) x)) with (1 * 1) by (unfold b; rewrite cube_along; cbn; lra).
    replace (along (bp_ph b) (joins (bp_ph b) y) (joins (bp_ph b) y)) with 2 by (unfold b; rewrite cube_along; cbn; lra).
    replace (along (bp_ph b) (joins (bp_ph b) x) (joins (bp_ph b) y)) with (-1) by (unfold b; rewrite cube_along; cbn; lra).
    rewrite sqrt_square by lra. replace (-1 / (1 * sqrt 2)) with (- (1 / sqrt 2)) by (field; lra). rewrite acos_neg_half. pose proof PI_RGT_0. field. lra.
  - lra.
  - intros CV. set (ep := fun (i : nat) (k : nat) => - dev_of3 i k). destruct (CV (z, z, ep)) as (d & D1 & D2).
    { split. intros k K. unfold z. rewrite Rabs_R0. lra. intros i k K. unfold ep. rewrite Rabs_Ropp. cbn [bp_dpos b cube bp]. right. apply Rabs_right. unfold dev_of3. destruct i as [|[|[|i]]], k as [|[|k]]; lra. }
    assert (D0 : d = 0). { pose proof (Rabs_pos d). unfold Rabs in *. destruct (Rcase_abs d); lra. } subst d.
    assert (D3 : derivable_pt_lim (angle_at (bp_ph b) (z, z, ep) x y) 0 (-1 / sqrt (1 - (- (1 / sqrt 2)) * (- (1 / sqrt 2))) * (4 / 100 / sqrt 2) * (180 / PI))).
    { apply (dlim_ext (fun s => acos ((-1 + s * (4 / 100)) / sqrt (2 + s * s * (32 / 10000))) * (180 / PI))).
      - intros s. unfold angle_at, apart_at. do 2 f_equal.
        assert (D : forall x' y', dot33 (metric_at (bp_ph b) (z, z, ep) s) (joins_at (bp_ph b) (z, z, ep) x' s) (joins_at (bp_ph b) (z, z, ep) y' s) = 16 * (joins_at (bp_ph b) (z, z, ep) x' s 0%nat * joins_at (bp_ph b) (z, z, ep) y' s 0%nat + joins_at (bp_ph b) (z, z, ep) x' s 1%nat * joins_at (bp_ph b) (z, z, ep) y' s 1%nat + joins_at (bp_ph b) (z, z, ep) x' s 2%nat * joins_at (bp_ph b) (z, z, ep) y' s 2%nat)).
        { intros x' y'. set (hx := joins_at _ _ x' s). set (hy := joins_at _ _ y' s). unfold metric_at, dot33, metric, cell_cos. cbn [Nat.eqb Nat.add cp_a0 cp_win bp_ph b cube bp ph win3]. unfold z. rewrite Rmult_0_r, !Rplus_0_r. pose proof cosd90 as C90. unfold m_cosd, rad in C90. rewrite C90. ring. }
        rewrite !D. cbn. unfold ep, dev_of3. symmetry. f_equal. lra.
        assert (E1 : forall w, w = 1 * 1 -> sqrt w = 1) by (intros w ->; apply sqrt_square; lra).
        rewrite E1 by lra. rewrite Rmult_1_l. f_equal. lra.
      - apply dmc. assert (E0 : (-1 + 0 * (4 / 100)) / sqrt (2 + 0 * 0 * (32 / 10000)) = - (1 / sqrt 2)). { replace (2 + 0 * 0 * (32 / 10000)) with 2 by ring. field. lra. }
        eapply dl_eq. apply (dacos (fun s => (-1 + s * (4 / 100)) / sqrt (2 + s * s * (32 / 10000)))).
        + cbv beta. rewrite E0. assert (P : 0 < 1 / sqrt 2 < 1). { split. apply Rdiv_lt_0_compat; lra. apply (Rmult_lt_reg_r (sqrt 2)); auto. replace (1 / sqrt 2 * sqrt 2) with 1 by (field; lra). rewrite Rmult_1_l. clear - SS S2. nra. } lra.
        + apply (ddv (fun s => -1 + s * (4 / 100)) (fun s => sqrt (2 + s * s * (32 / 10000)))).
          * cbv beta. replace (2 + 0 * 0 * (32 / 10000)) with 2 by ring. lra.
          * apply dlin.
          * apply (dsq (fun s => 2 + s * s * (32 / 10000))). lra. apply (dp (fun _ => 2) (fun s => s * s * (32 / 10000))). apply dlim_const. apply dmc. apply (dm (fun s => s) (fun s => s)); apply did.
        + cbv beta. rewrite E0. replace (2 + 0 * 0 * (32 / 10000)) with 2 by ring. f_equal. field. lra. }
    pose proof (uniq _ _ _ _ D1 D3) as E. clear - E S2 SS.
    assert (H : 1 - - (1 / sqrt 2) * - (1 / sqrt 2) = 1 / 2). { transitivity (1 - 1 / (sqrt 2 * sqrt 2)). field. lra. rewrite SS. field. }
    rewrite H in E. assert (Q : 0 < / sqrt (1 / 2)) by (apply Rinv_0_lt_compat, sqrt_lt_R0; lra). assert (P : 0 < / sqrt 2) by (apply Rinv_0_lt_compat; auto). pose proof PI_RGT_0. assert (I : 0 < / PI) by (apply Rinv_0_lt_compat; auto).
    unfold Rdiv in E. assert (M : 0 < / sqrt (1 / 2) * (4 * / 100 * / sqrt 2) * (180 * / PI)) by (repeat apply Rmult_lt_0_compat; lra). unfold Rdiv in M. lra.
Qed.
