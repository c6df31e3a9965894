(** Bond lengths and angles: the statements put together. *)
From Coq Require Import Ascii String List Arith ZArith Reals Bool Lia Lra Sorted.
From Verif Require Import Base MathModel MathProof MetricModel MetricSpec MetricProof SphereModel SphereSpec PdfModel PdfSpec PdfGeo PdfFinal ParserModel ElementTable ScatModel ScatSpec ScatProof BondModel BondSpec BondProof BondNear BondAngle BondErr BondEx.
Import ListNotations.
Local Open Scope R_scope.

Lemma forall2_map {A B} (P : A -> B -> Prop) f l : (forall x, In x l -> P x (f x)) -> Forall2 P l (map f l).
Proof. induction l; cbn; intros H; constructor; auto. Qed.

Lemma distinct_apart b i j t : fresh b -> good_cell (bp_ph b) -> distinct (bp_ph b) i j -> 0 < apart (bp_ph b) (i, j, t).
Proof.
  intros FR GC D. pose proof GC as ((A & B & C & _) & NT & _). destruct (lattice_metric (cp_a0 (bp_ph b)) (cp_win (bp_ph b)) (bp_lat b)) as (_ & _ & DT & PD); auto.
  { intros [|[|[|k]]] K; try lia; lra. }
  destruct (D t) as (k & K & NZ). destruct (PD (joins (bp_ph b) (i, j, t))) as [P0 P1]. rewrite DT in P0, P1. unfold apart, length_of. apply sqrt_lt_R0.
  destruct P0 as [P0|P0]; [exact P0|]. exfalso. destruct (P1 (eq_sym P0)) as (Z0 & Z1 & Z2). destruct k as [|[|[|k]]]; try lia; contradiction.
Qed.

Theorem bonds b q1 q2 lo hi : fresh b -> good_cell (bp_ph b) -> known q1 -> known q2 -> exists f0 W rv,
  (forall f, (f0 <= f)%nat -> bond_length_types f b q1 q2 lo hi = Ok rv) /\ Forall2 (entry (bp_ph b)) W rv /\
  NoDup W /\ StronglySorted (before (bp_ph b)) W /\
  (forall i j t, In (i, j, t) W -> asked b q1 i /\ asked b q2 j /\ lo <= apart (bp_ph b) (i, j, t) <= hi) /\
  (forall i j t, asked b q1 i -> asked b q2 j -> lo <= apart (bp_ph b) (i, j, t) <= hi ->
     (forall k, (k < 3)%nat -> Rabs (at_pos (atom_no (bp_ph b) i) k - at_pos (atom_no (bp_ph b) j) k) <= 1) -> In (i, j, t) W).
Proof.
  intros FR GC K1 K2. destruct (types_ok b FR GC lo hi q1 q2 K1 K2) as (f0 & W & F & ND & SS & SO & CO & _).
  exists f0, W, (map (made b) W). split; auto. split; [apply forall2_map; intros; apply made_entry|]. auto.
Qed.

Theorem lengths b f ia ja i j : fresh b -> good_cell (bp_ph b) -> number (bp_ph b) ia i -> number (bp_ph b) ja j -> (3 <= f)%nat -> exists r t,
  bond_length_atoms f b ia ja = Ok r /\ entry (bp_ph b) (i, j, t) r /\
  (right_angles (bp_ph b) -> (forall t', apart (bp_ph b) (i, j, t) <= apart (bp_ph b) (i, j, t')) <->
     (forall k, (k < 3)%nat -> low_half (Rabs (at_pos (atom_no (bp_ph b) i) k - at_pos (atom_no (bp_ph b) j) k)) (IZR (cp_icc (bp_ph b) k)))) /\
  (~ right_angles (bp_ph b) -> forall t', (forall k, (k < 3)%nat -> - IZR (cp_icc (bp_ph b) k) < joins (bp_ph b) (i, j, t') k <= 0) ->
     apart (bp_ph b) (i, j, t) <= apart (bp_ph b) (i, j, t')).
Proof.
  intros FR GC I J F. destruct (length_ok b FR GC f ia ja i j I J F) as (t & E & O & R). eexists. exists t. split; [exact E|]. split; [|split].
  - destruct I as [_ ->], J as [_ ->]. repeat split.
  - intros RA. apply right_shortest; auto.
  - exact O.
Qed.

Theorem angles b f ia ja ka i j k : fresh b -> good_cell (bp_ph b) -> number (bp_ph b) ia i -> number (bp_ph b) ja j -> number (bp_ph b) ka k ->
  i <> j -> i <> k -> j <> k -> (3 <= f)%nat -> exists t u ang dang,
  bond_angle f b ia ja ka = Ok (ang, dang) /\
  (forall r, bond_length_atoms f b ja ia = Ok r -> pd_dij r = Some (apart (bp_ph b) (j, i, t))) /\
  (forall r, bond_length_atoms f b ja ka = Ok r -> pd_dij r = Some (apart (bp_ph b) (j, k, u))) /\
  (distinct (bp_ph b) j i -> distinct (bp_ph b) j k -> exists a, ang = Some a /\ 0 <= a <= 180 /\
     along (bp_ph b) (joins (bp_ph b) (j, i, t)) (joins (bp_ph b) (j, k, u)) = apart (bp_ph b) (j, i, t) * apart (bp_ph b) (j, k, u) * cos (PI / 180 * a)).
Proof.
  intros FR GC I J K N1 N2 N3 F. destruct (bond_angle_ok b FR GC f ia ja ka i j k I J K N1 N2 N3 F) as (t & u & E & L1 & L2).
  exists t, u. eexists. eexists. split; [rewrite E; f_equal; apply surjective_pairing|]. split; auto. split; auto.
  intros DI DK. assert (P1 := distinct_apart b j i t FR GC DI). assert (P2 := distinct_apart b j k u FR GC DK). exists (m_acosd (cos_of b (joins (bp_ph b) (j, i, t)) (joins (bp_ph b) (j, k, u)))). split; [apply angle_value; auto|]. split; [apply acosd_range|].
  unfold m_acosd, rad. pose proof (cos_in b FR GC _ _ P1 P2) as C. pose proof PI_RGT_0.
  match goal with |- context [PI / 180 * ?x] => replace (PI / 180 * x) with (acos (cos_of b (joins (bp_ph b) (j, i, t)) (joins (bp_ph b) (j, k, u)))) by (field; lra) end.
  rewrite cos_acos by auto. unfold cos_of. fold (apart (bp_ph b) (j, i, t)) (apart (bp_ph b) (j, k, u)). field. split; lra.
Qed.
Lemma dtensor_sym v w dv dw i j : dtensor v w dv dw i j = dtensor v w dv dw j i.
Proof.
  unfold dtensor. destruct (Nat.eqb_spec i j) as [->|N]. rewrite Nat.eqb_refl. reflexivity. destruct (Nat.eqb_spec j i); [congruence|]. rewrite (Nat.add_comm j i).
  cbv zeta. set (w0 := (3 - (i + j))%nat). set (c := m_cosd (w w0)). set (u := m_sind (w w0)).
  replace (dv j * v i * c + v j * dv i * c + v j * v i * u * rad * dw w0) with (dv i * v j * c + v i * dv j * c + v i * v j * u * rad * dw w0) by ring. reflexivity.
Qed.
Theorem angle_sym b da dw f ia ja ka : fresh b -> good_cell (bp_ph b) -> fresh_err b da dw -> (3 <= f)%nat -> bond_angle f b ia ja ka = bond_angle f b ka ja ia.
Proof. intros FR GC FE F. apply bond_angle_sym; auto. intros i j _ _. rewrite FE. apply dtensor_sym. Qed.

Lemma ddist_ext b d d' dd : (forall k, (k < 3)%nat -> d' k = d k) -> ddist_of b d' dd = ddist_of b d dd.
Proof.
  intros D. assert (SK : skalpro (l_gten (bp_lat b)) d' d' = skalpro (l_gten (bp_lat b)) d d) by (unfold skalpro; cbn [fold_left idx3]; rewrite !D by lia; reflexivity).
  assert (DK : dskalpro (l_gten (bp_lat b)) (bp_dgten b) d' d' dd dd = dskalpro (l_gten (bp_lat b)) (bp_dgten b) d d dd dd) by (unfold dskalpro; cbn [fold_left idx3]; rewrite !D by lia; reflexivity).
  unfold ddist_of, dist_of. rewrite SK, DK. reflexivity.
Qed.
Theorem length_dev b da dw f ia ja i j : fresh b -> good_cell (bp_ph b) -> fresh_err b da dw -> no_obtuse (bp_ph b) -> no_tiny_err (bp_ph b) da dw ->
  number (bp_ph b) ia i -> number (bp_ph b) ja j -> (3 <= f)%nat -> exists r t,
  bond_length_atoms f b ia ja = Ok r /\ entry (bp_ph b) (i, j, t) r /\
  (distinct (bp_ph b) i j -> covers b da dw (fun c => apart_at (bp_ph b) c (i, j, t)) (pd_ddij r)).
Proof.
  intros FR GC FE NO NT I J F. destruct (length_ok b FR GC f ia ja i j I J F) as (t & E & _). eexists. exists t. split; [exact E|]. split.
  - destruct I as [_ ->], J as [_ ->]. repeat split.
  - intros P. exact (length_covered b da dw FR GC FE NO NT (i, j, t) (distinct_apart b i j t FR GC P)).
Qed.
Theorem types_dev b da dw q1 q2 lo hi : fresh b -> good_cell (bp_ph b) -> fresh_err b da dw -> no_obtuse (bp_ph b) -> no_tiny_err (bp_ph b) da dw ->
  known q1 -> known q2 -> exists f0 W rv,
  (forall f, (f0 <= f)%nat -> bond_length_types f b q1 q2 lo hi = Ok rv) /\
  Forall2 (fun x r => entry (bp_ph b) x r /\ (0 < apart (bp_ph b) x -> covers b da dw (fun c => apart_at (bp_ph b) c x) (pd_ddij r))) W rv.
Proof.
  intros FR GC FE NO NT K1 K2. destruct (types_ok b FR GC lo hi q1 q2 K1 K2) as (f0 & W & F & _).
  exists f0, W, (map (made b) W). split; auto. apply forall2_map. intros [[i j] t] _. split; [apply made_entry|]. intros P.
  pose proof (length_covered b da dw FR GC FE NO NT (i, j, t) P) as C. cbn [made pd_ddij].
  rewrite (ddist_ext b (joins (bp_ph b) (i, j, t))) by (intros k Hk; apply (vec_joins b); auto). exact C.
Qed.
Theorem angle_dev b da dw f ia ja ka i j k : fresh b -> good_cell (bp_ph b) -> fresh_err b da dw -> no_obtuse (bp_ph b) -> no_tiny_err (bp_ph b) da dw ->
  number (bp_ph b) ia i -> number (bp_ph b) ja j -> number (bp_ph b) ka k -> i <> j -> i <> k -> j <> k -> (3 <= f)%nat -> exists t u ang dang,
  bond_angle f b ia ja ka = Ok (ang, dang) /\
  (distinct (bp_ph b) j i -> distinct (bp_ph b) j k -> exists a, ang = Some a /\
   (forall c, angle_at (bp_ph b) c (j, i, t) (j, k, u) 0 = a) /\
   (0 < a <= 90 -> exists d, dang = Some d /\ covers b da dw (fun c => angle_at (bp_ph b) c (j, i, t) (j, k, u)) d)).
Proof.
  intros FR GC FE NO NT I J K N1 N2 N3 F. destruct (bond_angle_ok b FR GC f ia ja ka i j k I J K N1 N2 N3 F) as (t & u & E & _).
  exists t, u. eexists. eexists. split; [rewrite E; f_equal; apply surjective_pairing|].
  intros DI DK. assert (P1 := distinct_apart b j i t FR GC DI). assert (P2 := distinct_apart b j k u FR GC DK). exists (m_acosd (cos_of b (joins (bp_ph b) (j, i, t)) (joins (bp_ph b) (j, k, u)))). split; [apply angle_value; auto|]. split.
  - intros [[ea ew] ep]. unfold angle_at, apart_at.
    assert (D : forall x y, dot33 (metric_at (bp_ph b) (ea, ew, ep) 0) (joins_at (bp_ph b) (ea, ew, ep) x 0) (joins_at (bp_ph b) (ea, ew, ep) y 0) = along (bp_ph b) (joins (bp_ph b) x) (joins (bp_ph b) y)).
    { intros [[i1 j1] t1] [[i' j'] t']. unfold along, metric_at, joins_at, dot33. cbn [fst snd]. unfold metric, cell_cos. cbn [Nat.eqb Nat.add]. rewrite !sum0. reflexivity. }
    rewrite !D. unfold m_acosd, cos_of, rad. change (sqrt (along (bp_ph b) (joins (bp_ph b) (j, i, t)) (joins (bp_ph b) (j, i, t)))) with (apart (bp_ph b) (j, i, t)). change (sqrt (along (bp_ph b) (joins (bp_ph b) (j, k, u)) (joins (bp_ph b) (j, k, u)))) with (apart (bp_ph b) (j, k, u)).
    fold (apart (bp_ph b) (j, i, t)) (apart (bp_ph b) (j, k, u)). pose proof PI_RGT_0. field. lra || (repeat split; lra).
  - intros A. destruct (angle_covered b da dw FR GC FE NO NT (j, i, t) (j, k, u) P1 P2 A) as (d & D & C & _). exists d. split; auto.
Qed.

(** ** cases *)
(** cubic cell, three atoms, standard deviations of edges and coordinates *)
Definition dev1 : v3 := fun _ => 1 / 100.
Definition devp : nat -> v3 := fun _ _ => 1 / 100.
Definition sample_ps : list v3 := [at3 (1 / 4) 0 0; at3 0 0 0; at3 0 (1 / 4) 0].
Lemma sample3 : exists b, natoms (bp_ph b) = 3%nat /\ fresh b /\ good_cell (bp_ph b) /\ right_angles (bp_ph b) /\ no_obtuse (bp_ph b) /\ fresh_err b dev1 (fun _ => 0) /\ no_tiny_err (bp_ph b) dev1 (fun _ => 0) /\
  number (bp_ph b) 1 0 /\ number (bp_ph b) 2 1 /\ number (bp_ph b) 3 2 /\
  distinct (bp_ph b) 1 0 /\ distinct (bp_ph b) 1 2 /\ (exists r, bond_length_atoms 3 b 2 1 = Ok r /\ pd_dij r = Some 1) /\ exists d, bond_angle 3 b 1 2 3 = Ok (Some 90, d).
Proof.
  destruct (lat3 4 90 0 cosd90 ltac:(lra)) as [l L]. set (b := cube sample_ps devp l (dtensor (fun _ => 4) (win3 90) dev1 (fun _ => 0))).
  destruct (cube_ok sample_ps devp l (dtensor (fun _ => 4) (win3 90) dev1 (fun _ => 0)) L) as (FR & GC & RA). fold b in FR, GC, RA.
  assert (N : number (bp_ph b) 1 0 /\ number (bp_ph b) 2 1 /\ number (bp_ph b) 3 2) by (repeat split; cbn; lia). destruct N as (N1 & N2 & N3).
  exists b. split; [reflexivity|]. do 3 (split; [auto; fail|]). split; [intros k K; rewrite RA by auto; lra|]. split; [reflexivity|]. split.
  - intros i j I J D. left. rewrite RA by lia. pose proof cosd90 as C90. unfold m_cosd, rad in C90. rewrite C90. ring.
  - do 3 (split; [auto; fail|]). 
    assert (DI : forall x t, (t = 0%Z \/ t <> 0%Z) -> x = 1 / 4 -> 0 - (x + IZR t * 1) <> 0).
    { intros x t _ -> E. assert (B : -1 < IZR t < 0) by lra. destruct B as [B1 B2]. apply lt_IZR in B1. apply (lt_IZR t 0) in B2. lia. }
    split; [intros [[m n] o]; exists 0%nat; split; [lia|]; cbn; apply DI; auto; lia|].
    split; [intros [[m n] o]; exists 1%nat; split; [lia|]; cbn; apply DI; auto; lia|]. split.
    + destruct (length_ok b FR GC 3 2 1 1 0 N2 N1 (le_n 3)) as (t & E & _ & O). eexists. split; [exact E|]. cbn [pd_dij]. f_equal. specialize (O RA).
      unfold apart. rewrite (len_ext b (at3 (- (1 / 4)) 0 0)). apply cube_len; cbn; lra. intros k K. rewrite O by auto. destruct k as [|[|[|k]]]; try lia; cbn; (rewrite fmod_small; [|lra|lra]); lra.
    + assert (A : bond_angle 3 b 1 2 3 = Ok (angle_of b (at3 (- (1 / 4)) 0 0) (at3 0 (- (1 / 4)) 0) (fun n => devp 1%nat n + devp 0%nat n) (fun n => devp 1%nat n + devp 2%nat n)))
        by (exact (cube_angle (at3 (1 / 4) 0 0) (at3 0 0 0) (at3 0 (1 / 4) 0) devp l _ (at3 (- (1 / 4)) 0 0) (at3 0 (- (1 / 4)) 0) L ltac:(three) ltac:(three))).
      rewrite A. eexists. f_equal. rewrite (surjective_pairing (angle_of _ _ _ _ _)). f_equal.
      assert (XL : length_of (bp_ph b) (at3 (- (1 / 4)) 0 0) = 1) by (apply cube_len; cbn; lra). assert (YL : length_of (bp_ph b) (at3 0 (- (1 / 4)) 0) = 1) by (apply cube_len; cbn; lra).
      rewrite (angle_value b FR GC) by lra. f_equal. unfold cos_of. rewrite XL, YL. unfold b at 1. rewrite cube_along. cbn.
      match goal with |- m_acosd ?x = _ => replace x with 0 by field end. unfold m_acosd, rad. rewrite acos_0. pose proof PI_RGT_0. field. lra.
Qed.
Lemma sample : exists b, fresh b /\ good_cell (bp_ph b) /\ right_angles (bp_ph b) /\ no_obtuse (bp_ph b) /\ fresh_err b dev1 (fun _ => 0) /\ no_tiny_err (bp_ph b) dev1 (fun _ => 0) /\
  number (bp_ph b) 1 0 /\ number (bp_ph b) 2 1 /\ number (bp_ph b) 3 2 /\
  distinct (bp_ph b) 1 0 /\ distinct (bp_ph b) 1 2 /\ (exists r, bond_length_atoms 3 b 2 1 = Ok r /\ pd_dij r = Some 1) /\ exists d, bond_angle 3 b 1 2 3 = Ok (Some 90, d).
Proof. destruct sample3 as (b & _ & H). exists b. exact H. Qed.
(** a cell with an angle of 60 degrees, atoms on a line along an edge *)
Lemma sample_oblique : exists b, fresh b /\ good_cell (bp_ph b) /\ ~ right_angles (bp_ph b) /\ number (bp_ph b) 1 0 /\ number (bp_ph b) 2 1 /\
  (forall k, (k < 3)%nat -> k <> 0%nat -> joins (bp_ph b) (0%nat, 1%nat, (0, 0, 0)%Z) k = 0) /\ 0 < apart (bp_ph b) (0%nat, 1%nat, (0, 0, 0)%Z).
Proof.
  destruct (lat3 4 60 (1 / 2) cosd60 ltac:(lra)) as [l L].
  set (b := bp 4 60 (cells 1) [at3 (9 / 10) 0 0; at3 0 0 0] no_dev l (fun _ _ => 0)). exists b.
  split; [exact L|]. split; [apply (ready3 4 60 (1 / 2)); try lra; try lia; [apply cosd60|right; rewrite Rabs_right; lra]|].
  split; [intros X; specialize (X 2%nat ltac:(lia)); cbn in X; lra|]. split; [apply num1|]. split; [apply num2|]. split.
  - intros [|[|[|k]]] K N; try lia; cbn; lra.
  - replace (apart (bp_ph b) (0%nat, 1%nat, (0, 0, 0)%Z)) with (36 / 10); [lra|]. symmetry. apply (len3 4 60 (1 / 2)). apply cosd60. lra. unfold quad. cbn. lra.
Qed.
(** the sample has bonds between 0.5 and 2 *)
Lemma carbon : exists e, means (chars "c") e /\ chars "C" = chars (el_symbol e).
Proof.
  assert (H : match pt_lookup elements (chars "c") with Some e => chars "C" = chars (el_symbol e) | None => False end) by (vm_compute; reflexivity).
  destruct (pt_lookup elements (chars "c")) as [e|] eqn:E; [|contradiction]. exists e. split; auto. apply lookup_ok. exact E.
Qed.
Lemma sample_bonds : exists b f0 W rv, fresh b /\ good_cell (bp_ph b) /\ known (chars "all") /\ known (chars "c") /\ asked b (chars "c") 1 /\ asked b (chars "all") 0 /\
  (forall f, (f0 <= f)%nat -> bond_length_types f b (chars "c") (chars "all") (5 / 10) 2 = Ok rv) /\ Forall2 (entry (bp_ph b)) W rv /\ In (1%nat, 0%nat, (0, 0, 0)%Z) W.
Proof.
  destruct (lat3 4 90 0 cosd90 ltac:(lra)) as [l L]. set (b := cube sample_ps devp l (fun _ _ => 0)).
  destruct (cube_ok sample_ps devp l (fun _ _ => 0) L) as (FR & GC & RA). fold b in FR, GC, RA.
  destruct carbon as (e & M & S). assert (KC : known (chars "c")) by (right; eauto).
  assert (AC : asked b (chars "c") 1) by (split; [cbn; lia|right; exists e; split; auto]). assert (AA : asked b (chars "all") 0) by (split; [cbn; lia|left; apply same_refl]).
  destruct (bonds b (chars "c") (chars "all") (5 / 10) 2 FR GC KC known_all) as (f0 & W & rv & F & E & _ & _ & _ & C).
  exists b, f0, W, rv. do 8 (split; [auto using known_all; fail|]). apply C; auto.
  - replace (apart (bp_ph b) (1%nat, 0%nat, (0, 0, 0)%Z)) with 1; [lra|]. symmetry. apply cube_len; cbn; lra.
  - intros [|[|[|k]]] K; try lia; cbn; unfold Rabs; destruct (Rcase_abs _); lra.
Qed.
Lemma unknown_word : ~ known (chars "Xx").
Proof.
  intros [H|[e H]]. inversion H; subst. match goal with X : Forall2 _ [_] _ |- _ => inversion X; subst end. match goal with X : Forall2 _ [] _ |- _ => inversion X end.
  revert H. apply lookup_none. vm_compute. reflexivity.
Qed.
Lemma symmetric_sample : exists b, fresh b /\ good_cell (bp_ph b) /\ right_angles (bp_ph b).
Proof. destruct sample as (b & A & B & C & _). eauto. Qed.
Lemma no_such_atom : forall b i, natoms (bp_ph b) = 3%nat -> ~ number (bp_ph b) 4 i /\ ~ number (bp_ph b) 0 i.
Proof. intros b i N. split; intros [A B]; lia. Qed.
Lemma same_place : exists b, fresh b /\ good_cell (bp_ph b) /\ number (bp_ph b) 1 0 /\ number (bp_ph b) 2 1 /\ number (bp_ph b) 3 2 /\
  (forall n, (n < 3)%nat -> joins (bp_ph b) (1%nat, 0%nat, (1, 0, 0)%Z) n = 0).
Proof.
  destruct (lat3 4 90 0 cosd90 ltac:(lra)) as [l L]. set (ps := [at3 0 0 0; at3 1 0 0; at3 (1 / 4) 0 0]). set (b := cube ps no_dev l (fun _ _ => 0)).
  destruct (cube_ok ps no_dev l (fun _ _ => 0) L) as (FR & GC & RA). fold b in FR, GC, RA.
  exists b. split; auto. split; auto. do 3 (split; [split; [cbn; lia|reflexivity]|]). intros [|[|[|n]]] Hn; try lia; cbn; lra.
Qed.
Lemma low_case : exists b, fresh b /\ good_cell (bp_ph b) /\ right_angles (bp_ph b) /\ number (bp_ph b) 2 1 /\ number (bp_ph b) 1 0 /\
  (forall k, (k < 3)%nat -> low_half (Rabs (at_pos (atom_no (bp_ph b) 1) k - at_pos (atom_no (bp_ph b) 0) k)) (IZR (cp_icc (bp_ph b) k))).
Proof.
  destruct (lat3 4 90 0 cosd90 ltac:(lra)) as [l L]. set (ps := [at3 (1 / 4) 0 0; at3 (3 / 2) 0 0]). set (b := cube ps no_dev l (fun _ _ => 0)).
  destruct (cube_ok ps no_dev l (fun _ _ => 0) L) as (FR & GC & RA). fold b in FR, GC, RA.
  exists b. split; auto. split; auto. split; auto. do 2 (split; [split; [cbn; lia|reflexivity]|]). intros [|[|[|k]]] K; try lia; cbn; [exists 1%Z|exists 0%Z|exists 0%Z]; unfold Rabs; destruct (Rcase_abs _); lra.
Qed.
