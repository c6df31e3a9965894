(** What holds of the calculation whatever the atoms are: no access outside the
    arrays, and numbers that are not finite spread. *)
From Coq Require Import List Arith ZArith Reals Bool Lia Lra.
From Verif Require Import Base RSum MathModel MetricModel MetricSpec SphereModel SphereSpec SphereProof PdfModel PdfSpec PdfProof PdfGeo PdfSum PdfPeak PdfPhase PdfFft PdfTotal.
Import ListNotations.
Local Open Scope R_scope.

Lemma nadd_none x : nadd x None = None. Proof. destruct x; reflexivity. Qed.
Lemma nmul_none x : nmul x None = None. Proof. destruct x; reflexivity. Qed.

Section Safe.
Variable d : cdata.
Hypothesis G : good_grid d.
Let lo := idx d (calc_lo d).
Let hi := idx d (calc_hi d).
Let N := Z.to_nat (hi + 1).

(** q' comes from q without touching the length, what lies below the calculated
    range, or any NaN *)
Definition safe_to (q q' : list num) : Prop :=
  length q' = N /\ forall g, (0 <= g)%Z -> ((g < lo)%Z -> el q' g = el q g) /\ (el q g = None -> el q' g = None).
Definition spoiled (q : list num) : Prop := forall g, (lo <= g <= hi)%Z -> el q g = None.
Lemma safe_refl q : length q = N -> safe_to q q.
Proof. intros L. split; auto. Qed.
Lemma safe_trans q1 q2 q3 : safe_to q1 q2 -> safe_to q2 q3 -> safe_to q1 q3.
Proof. intros [L1 S1] [L2 S2]. split; auto. intros g Hg. destruct (S1 g Hg), (S2 g Hg). split; intros; auto. rewrite H1, H; auto. Qed.
Lemma safe_spoilt q q' : safe_to q q' -> spoiled q -> spoiled q'.
Proof. intros [_ S] P g Hg. pose proof (lo_hi d G). fold lo hi in H. apply S. lia. apply P; auto. Qed.

Lemma safe_loop A (step : list num -> A -> outcome (list num)) (l : list A) : forall q, length q = N ->
  (forall a q, In a l -> length q = N -> exists q', step q a = Ok q' /\ safe_to q q') ->
  exists q', ofold step l q = Ok q' /\ safe_to q q' /\
    ((exists a, In a l /\ forall q q', length q = N -> step q a = Ok q' -> spoiled q') -> spoiled q').
Proof.
  induction l as [|a l IH]; intros q L H.
  - exists q. split; auto. split. apply safe_refl; auto. intros (a & [] & _).
  - destruct (H a q (or_introl eq_refl) L) as (q1 & E1 & S1). cbn [ofold]. rewrite E1. cbn [obind].
    destruct (IH q1) as (q2 & E2 & S2 & P2). apply S1. { intros; apply H; auto. right; auto. }
    exists q2. split; auto. split. eapply safe_trans; eauto. intros (b & [->|I] & P).
    + apply (safe_spoilt q1); auto. apply (P q); auto.
    + apply P2. exists b. auto.
Qed.

(** ** pairs *)
Section Phase.
Variables (e : centry).
Let p := en_ph e.
Let de := en_der e.
Hypothesis UTD : up_to_date e.
Hypothesis PC : proper_cell (cp_a0 p 0%nat) (cp_a0 p 1%nat) (cp_a0 p 2%nat) (cp_win p 0%nat) (cp_win p 1%nat) (cp_win p 2%nat).
Hypothesis ICC : forall k, (1 <= cp_icc p k)%Z.
Hypothesis SR : 0 <= cp_sratio p.

Lemma pair_peak_any wi wj ai aj b t k : let (rmin2, rmax2) := dist_limits (calc_lo d) (calc_hi d) in
  pair_peak (cd_qbroad d) rmin2 rmax2 p (de_lat de) wi wj ai aj b t = Some k ->
  num_nn (pk_sigma k) /\ 0 <= pk_dist k <= calc_hi d + 1.
Proof.
  pose proof (limits_sqrt (calc_lo d) (calc_hi d) (proj2 (calc_hi_nn d G))) as LS.
  destruct (dist_limits (calc_lo d) (calc_hi d)) as [rmin2 rmax2] eqn:DL. destruct LS as [_ LS].
  unfold pair_peak. destruct t as [[m n] o]. cbv zeta. set (d2 := skalpro _ _ _). destruct (Rlt_dec d2 rmin2); [discriminate|]. destruct (Rlt_dec rmax2 d2) as [|B]; [discriminate|].
  set (s := nsqrt _). destruct (match s with Some s0 => if Rle_dec s0 0 then true else false | None => false end); [discriminate|].
  set (cf := 1 - _ - _ + _). destruct (Rle_dec cf 0); [discriminate|]. intros E. inversion E as [K]; clear E. cbn [pk_sigma pk_dist]. split.
  - assert (S : num_nn s). { unfold s, nsqrt. destruct (Rlt_dec _ 0); simpl; auto. apply R_sqrt.sqrt_pos. }
    destruct (Rlt_dec _ (cp_rcut p)); destruct s as [x|]; cbn [nmul num_nn]; auto; simpl in S; repeat apply Rmult_le_pos; auto; apply R_sqrt.sqrt_pos.
  - split. apply R_sqrt.sqrt_pos. rewrite <- LS. apply sqrt_le_1_alt. lra.
Qed.

Lemma peak_step q k : length q = N -> num_nn (pk_sigma k) -> 0 <= pk_dist k <= calc_hi d + 1 ->
  exists q', add_peak d (calc_lo d) (calc_hi d) (cp_stepcut p) q k = Ok q' /\ safe_to q q' /\
  (pk_sigma k = None -> cp_stepcut p <= 0 -> spoiled q').
Proof.
  intros L S R1. destruct (add_peak_touch d G q k (cp_stepcut p) L S R1) as (q' & E & L' & X). exists q'. split; auto. split; [split; auto|].
  - intros g Hg. destruct (X g Hg) as [X1 X2]. set (a := idx d (pk_lo d (pk_sigma k) (pk_dist k))) in *. set (b := idx d (pk_hi d (pk_sigma k) (cp_stepcut p) (pk_dist k))) in *.
    destruct (Z_le_dec a g) as [A|A]; [destruct (Z_le_dec g b) as [B|B]|]; try (rewrite X2 by lia; auto).
    destruct (X1 (conj A B)) as [I ->]. split. unfold lo. lia. intros ->. reflexivity.
  - intros SN SC g Hg. pose proof (lo_hi d G). fold lo hi in H. destruct (X g) as [X1 _]; [lia|]. unfold pk_lo, pk_hi in X1. rewrite SN in X1. destruct (Rlt_dec 0 (cp_stepcut p)); [lra|].
    destruct (X1 Hg) as [_ ->]. assert (GN : forall x, gauss None x = None) by reflexivity. rewrite GN, nmul_none. apply nadd_none.
Qed.

Lemma pair_peak_bad (NT : no_tiny (metric (cp_a0 p) (cp_win p))) wi wj i j b t : bad_pair d e (i, j, t) -> let (rmin2, rmax2) := dist_limits (calc_lo d) (calc_hi d) in
  exists k, pair_peak (cd_qbroad d) rmin2 rmax2 p (de_lat de) wi wj (atom_no p i) (atom_no p j) b t = Some k /\ pk_sigma k = None.
Proof.
  intros ((_ & _ & _ & I) & M & WF). fold p in M, WF. set (ai := atom_no p i) in *. set (aj := atom_no p j) in *. fold p in I. fold ai aj in I.
  set (r := length_of p (sep p ai aj t)) in *. assert (RP : 0 < r) by (destruct I; lra).
  pose proof (limits_ok (calc_lo d) (calc_hi d) r (proj2 (calc_hi_nn d G)) ltac:(lra)) as LIM.
  destruct (dist_limits (calc_lo d) (calc_hi d)) as [rmin2 rmax2].
  unfold pair_peak. destruct t as [[m n] o].
  change (fun i => at_pos ai i - at_pos aj i - IZR match i with O => m | S O => n | _ => o end * IZR (cp_icc p i)) with (dd p ai aj (m, n, o)).
  assert (DD : skalpro (l_gten (de_lat de)) (dd p ai aj (m, n, o)) (dd p ai aj (m, n, o)) = r * r).
  { unfold r. rewrite (gten_dot p de UTD PC NT), (length_sq p de UTD PC NT). unfold dot33. rewrite !dd_sep by lia. reflexivity. }
  rewrite DD. destruct (Rlt_dec (r * r) rmin2); [exfalso; unfold in_reach in I; tauto|]. destruct (Rlt_dec rmax2 (r * r)); [exfalso; unfold in_reach in I; tauto|].
  rewrite sqrt_square by lra.
  assert (ME : msd_atoms (de_lat de) ai aj (dd p ai aj (m, n, o)) = msd p ai aj (sep p ai aj (m, n, o))).
  { rewrite (msd_ok p de UTD PC NT).
    - apply msd_ext. intros. apply dd_sep; auto.
    - replace (length_of p (dd p ai aj (m, n, o))) with r; auto. symmetry. apply (nrm_ext (metric (cp_a0 p) (cp_win p))). intros. apply dd_sep; auto. }
  rewrite ME. unfold nsqrt. destruct (Rlt_dec _ 0); [|contradiction].
  replace (1 - cp_delta2 p / (r * r) - cp_delta1 p / r + m_sqr (cd_qbroad d) * (r * r)) with (width_factor d p r) by reflexivity.
  destruct (Rle_dec (width_factor d p r) 0); [lra|]. eexists. split. reflexivity. cbn [pk_sigma nmul]. destruct (Rlt_dec r (cp_rcut p)); reflexivity.
Qed.

Let skip_step pts := (fun (ppp : list num) (ij : nat * nat) =>
           let (i, j) := ij in
           if skip_pair (en_igni e) (en_ignj e) i j then Ok ppp
           else
             obind (rd (cp_atoms p) i) (fun ai => obind (rd (cp_atoms p) j) (fun aj =>
             ofold (fun ppp mno =>
                      match pair_peak (cd_qbroad d) (fst (dist_limits (calc_lo d) (calc_hi d))) (snd (dist_limits (calc_lo d) (calc_hi d))) p (de_lat de) (nth i (weights (cd_type d) (de_np de) (cp_atoms p)) None) (nth j (weights (cd_type d) (de_np de) (cp_atoms p)) None) ai aj (negb (i =? j)%nat) mno with
                      | None => Ok ppp
                      | Some k => add_peak d (calc_lo d) (calc_hi d) (cp_stepcut p) ppp k
                      end) pts ppp))).
Lemma pair_step pts i j q : (i < natoms p)%nat -> (j < natoms p)%nat -> length q = N ->
  exists q', skip_step pts q (i, j) = Ok q' /\ safe_to q q' /\
   (forall t, In t pts -> bad_pair d e (i, j, t) -> no_tiny (metric (cp_a0 p) (cp_win p)) -> cp_stepcut p <= 0 -> spoiled q').
Proof.
  intros Hi Hj L. unfold skip_step. destruct (skip_pair (en_igni e) (en_ignj e) i j) eqn:SK.
  { exists q. split; auto. split. apply safe_refl; auto. intros t _ ((_ & _ & C & _) & _). exfalso. rewrite skip_counted in SK. rewrite C in SK. discriminate. }
  assert (RA : forall i, (i < natoms p)%nat -> rd (cp_atoms p) i = Ok (atom_no p i)). { intros k Hk. unfold rd, atom_no. rewrite (nth_error_nth' _ no_atom) by auto. reflexivity. }
  rewrite !RA by auto. cbn [obind].
  set (wts := weights (cd_type d) (de_np de) (cp_atoms p)). set (wi := nth i wts None). set (wj := nth j wts None).
  pose proof (fun t k => pair_peak_any wi wj (atom_no p i) (atom_no p j) (negb (i =? j)%nat) t k) as PP.
  pose proof (fun NT t => pair_peak_bad NT wi wj i j (negb (i =? j)%nat) t) as PB.
  destruct (dist_limits (calc_lo d) (calc_hi d)) as [rmin2 rmax2]. cbn [fst snd].
  match goal with |- context [ofold ?s pts q] => destruct (safe_loop _ s pts q L) as (q' & E & S & P) end.
  { intros t q0 _ L0. specialize (PP t). destruct (pair_peak _ _ _ _ _ _ _ _ _ _ t) as [k|].
    - destruct (PP k eq_refl). destruct (peak_step q0 k L0) as (q1 & E1 & S1 & _); auto. exists q1. auto.
    - exists q0. split; auto. apply safe_refl; auto. }
  exists q'. split; auto. split; auto. intros t I B NT SC. apply P. exists t. split; auto. intros q0 q1 L0 E0.
  destruct (PB NT t B) as (k & EK & SN). rewrite EK in E0. destruct (PP t k EK). destruct (peak_step q0 k L0) as (q2 & E2 & _ & S2); auto. rewrite E2 in E0. inversion E0; subst. auto.
Qed.

Lemma phase_sums_any : exists f0, forall fuel, (f0 <= fuel)%nat -> exists ppp dn,
  phase_sums fuel d (calc_lo d) (calc_hi d) lo hi e = Ok (ppp, dn) /\ length ppp = N /\
  ((exists x, bad_pair d e x) -> no_tiny (metric (cp_a0 p) (cp_win p)) -> cp_stepcut p <= 0 -> one_cell p -> spoiled ppp).
Proof.
  destruct (sphere_found p PC ICC (sph_lo d e) (sph_hi d e)) as (f0 & pts & F & _ & C & _). exists f0. intros fuel Hf. specialize (F fuel Hf).
  unfold phase_sums. fold p de. pose proof (lo_hi d G) as NC. fold lo hi in NC.
  destruct (Z.ltb_spec lo 0); [lia|]. destruct (Z.ltb_spec (hi + 1) lo); [lia|]. cbn [orb].
  pose proof (limits_sqrt (calc_lo d) (calc_hi d) (proj2 (calc_hi_nn d G))) as LS.
  pose proof (pair_step pts) as PS. unfold skip_step in PS.
  destruct (dist_limits (calc_lo d) (calc_hi d)) as [rmin2 rmax2]. destruct LS as [-> ->]. cbn [fst snd] in PS.
  match goal with |- context [points_in_sphere ?a ?b ?c ?dd] => replace (points_in_sphere a b c dd) with (Ok pts) by (symmetry; exact F) end. cbn [obind].
  fold N. match goal with |- context [ofold ?s (half_loop ?m) ?x] => destruct (safe_loop _ s (half_loop m) x) as (q & E & S & P) end.
  { apply repeat_length. }
  { intros [i j] q H' Lq. apply half_in in H'. destruct (PS i j q) as (q' & E & S & _); auto; try (unfold natoms; lia). exists q'. auto. }
  rewrite E. cbn [obind]. exists q. eexists. split. reflexivity. split. apply S.
  intros ([[i j] t] & B) NT SC ONE. apply P.
  (* the pair or its reverse is in the half loop *)
  assert (IN : forall i j t, bad_pair d e (i, j, t) -> In t pts).
  { clear i j t B. intros i j t B. pose proof B as ((Hi & Hj & _ & I) & _). fold p in Hi, Hj, I. apply C.
    assert (NE : cp_atoms p <> []). { intros E0. unfold natoms in Hi. rewrite E0 in Hi. simpl in Hi. lia. }
    assert (CB : length_of p (fun k => at_pos (atom_no p i) k - at_pos (atom_no p j) k) < circum_diameter (de_lat de) (cp_atoms p)).
    { apply (circum_bound p de UTD PC NT); auto. }
    pose proof (sep_trans_hi p de UTD PC NT (atom_no p i) (atom_no p j) t) as H1.
    pose proof (sep_trans_lo p de UTD PC NT (atom_no p i) (atom_no p j) t) as H2.
    destruct I as [I1 [I2 I3]]. unfold sph_lo, sph_hi. fold p de. cbv zeta. destruct (Rlt_dec 0 (cp_stepcut p)); [lra|].
    set (C0 := circum_diameter _ _) in *. split. unfold Rmax. destruct (Rle_dec _ _); lra. lra. }
  assert (RV : bad_pair d e (j, i, rev_t t)).
  { destruct B as ((Hi & Hj & CT & I) & M & WF). unfold bad_pair, is_pair. fold p. rewrite len_rev. fold p in Hi, Hj, I, M, WF. repeat split; auto; try apply I. rewrite counted_sym; auto.
    rewrite (msd_opp p (atom_no p i) (atom_no p j) (sep p (atom_no p i) (atom_no p j) t)); auto. intros k Hk. destruct t as [[m n0] o]. destruct k as [|[|[|k]]]; try lia; cbn; rewrite opp_IZR; ring. }
  destruct (le_lt_dec i j).
  - exists (i, j). split. apply half_in. destruct B as ((Hi & Hj & _) & _). fold p in Hi, Hj. unfold natoms in *. lia.
    intros q0 q1 L0 E0. destruct (PS i j q0) as (q2 & E2 & _ & P2); auto; try (apply B). rewrite E2 in E0. inversion E0; subst. apply (P2 t); auto. apply (IN i j); auto.
  - exists (j, i). split. apply half_in. destruct B as ((Hi & Hj & _) & _). fold p in Hi, Hj. unfold natoms in *. lia.
    intros q0 q1 L0 E0. destruct (PS j i q0) as (q2 & E2 & _ & P2); auto; try (apply B). rewrite E2 in E0. inversion E0; subst. apply (P2 (rev_t t)); auto. apply (IN j i); auto.
Qed.

Lemma calc_point_none np rho dn i : calc_point d p np rho dn i None = None.
Proof. unfold calc_point. cbv zeta. cbn [ndiv nsub]. repeat (destruct (Rlt_dec _ _)); reflexivity. Qed.
Lemma calc_point_origin np rho dn i v : grid d i = 0 -> calc_point d p np rho dn i v = None.
Proof.
  intros Z. unfold calc_point. replace (IZR i * cd_deltar d + cd_rmin d) with (grid d i) by (unfold grid; ring). rewrite Z. cbv zeta.
  assert (E : forall x, ndiv x (Some 0) = None). { intros [x|]; cbn; auto. destruct (Req_EM_T 0 0); auto; contradiction. }
  rewrite E. cbn [nsub]. repeat (destruct (Rlt_dec _ _)); reflexivity.
Qed.

Lemma add_phase_any : exists f0, forall fuel t, (f0 <= fuel)%nat -> length t = N -> exists t',
  add_phase fuel d (calc_lo d) (calc_hi d) lo hi t e = Ok t' /\ safe_to t t' /\
  ((exists x, bad_pair d e x) -> no_tiny (metric (cp_a0 p) (cp_win p)) -> cp_stepcut p <= 0 -> one_cell p -> spoiled t') /\
  (forall g, (lo <= g <= hi)%Z -> grid d g = 0 -> el t' g = None).
Proof.
  destruct phase_sums_any as (f0 & PS). exists f0. intros fuel t Hf L. destruct (PS fuel Hf) as (ppp & dn & E & LP & B).
  unfold add_phase. rewrite E. cbn [obind]. fold p. pose proof (lo_hi d G) as LH. fold lo hi in LH.
  set (h := fun g => nmul (Some (cd_dscale d * cp_pscale p)) (calc_point d p (de_np de) (de_rho0 de) dn g (el ppp g))).
  destruct (bump_ok h (zloop lo hi) t) as (t' & E' & L' & X'). apply zloop_nodup. { intros g Hg. apply zloop_in in Hg. rewrite L. unfold N. lia. }
  assert (OE : forall l t, (forall g, In g l -> (0 <= g <= hi)%Z) ->
      ofold (fun (pdftot : list num) (i : Z) => obind (rdz ppp i) (fun v => obind (rdz pdftot i) (fun old => wrz pdftot i (nadd old (nmul (Some (cd_dscale d * cp_pscale p)) (calc_point d p (de_np de) (de_rho0 de) dn i v)))))) l t =
      ofold (fun l g => obind (rdz l g) (fun old => wrz l g (nadd old (h g)))) l t).
  { induction l; intros t1 Bd; cbn [ofold]; auto. rewrite rdz_ok by (rewrite LP; pose proof (Bd a (or_introl eq_refl)); unfold N; lia). cbn [obind].
    fold (h a). destruct (obind (rdz t1 a) _); cbn [obind]; auto. apply IHl. intros; apply Bd; right; auto. }
  exists t'. split; [|split; [|split]].
  - rewrite <- E'. apply OE. intros g Hg. apply zloop_in in Hg. lia.
  - split. congruence. intros g Hg. destruct (X' g Hg) as [Y1 Y2]. split.
    + intros Lt. apply Y2. rewrite zloop_in. lia.
    + intros Nn. destruct (in_dec Z.eq_dec g (zloop lo hi)) as [I|I]. rewrite Y1, Nn by auto. reflexivity. rewrite Y2; auto.
  - intros X NT SC ONE g Hg. destruct (X' g ltac:(lia)) as [Y1 _]. rewrite Y1 by (apply zloop_in; lia). unfold h. rewrite (B X NT SC ONE g Hg), calc_point_none, nmul_none. apply nadd_none.
  - intros g Hg Z. destruct (X' g ltac:(lia)) as [Y1 _]. rewrite Y1 by (apply zloop_in; lia). unfold h. rewrite calc_point_origin by auto. rewrite nmul_none. apply nadd_none.
Qed.
End Phase.

Lemma phases_any psel : (forall e, In e (selected_entries psel) -> cell_ok e) -> exists f0, forall fuel t, (f0 <= fuel)%nat -> length t = N -> exists t',
  ofold (fun t pe => match pe with Some e => add_phase fuel d (calc_lo d) (calc_hi d) lo hi t e | None => Ok t end) psel t = Ok t' /\ safe_to t t' /\
  ((exists e, In e (selected_entries psel) /\ spoiler d e) -> spoiled t') /\
  (selected_entries psel <> [] -> forall g, (lo <= g <= hi)%Z -> grid d g = 0 -> el t' g = None).
Proof.
  induction psel as [|[e|] psel IH]; intros H.
  - exists 0%nat. intros fuel t _ L. exists t. split; auto. split. apply safe_refl; auto. split. intros (e & [] & _). intros X. contradiction.
  - cbn [selected_entries] in *. destruct IH as (f1 & R1). { intros; apply H; right; auto. }
    destruct (H e (or_introl eq_refl)) as (U & C & I & S). destruct (add_phase_any e U C I S) as (f2 & R2).
    exists (Nat.max f1 f2). intros fuel t Hf L. destruct (R2 fuel t ltac:(lia) L) as (t1 & E1 & S1 & P1 & Z1). destruct (R1 fuel t1 ltac:(lia) (proj1 S1)) as (t2 & E2 & S2 & P2 & Z2).
    exists t2. cbn [ofold]. rewrite E1. cbn [obind]. split; auto. split. eapply safe_trans; eauto. split.
    + intros (e' & [<-|I'] & (X & NT & SC & ONE)). apply (safe_spoilt t1); auto. apply P2. exists e'. repeat split; auto.
    + intros _ g Hg Z. pose proof (lo_hi d G) as LH. fold lo hi in LH. apply S2. lia. auto.
  - cbn [selected_entries] in *. destruct (IH H) as (f1 & R1). exists f1. exact R1.
Qed.

Lemma all_fin_len l y : all_fin y = Some l -> length l = length y.
Proof. revert l. induction y as [|[x|] y IH]; simpl; intros l H. inversion H; auto. destruct (all_fin y); inversion H. simpl. f_equal. auto. discriminate. Qed.
Lemma all_fin_none y : In None y -> all_fin y = None.
Proof. induction y as [|[x|] y IH]; simpl; intros H; auto. contradiction. destruct H as [H|H]; [discriminate|]. rewrite IH; auto. Qed.
Lemma cutoff_any y : 0 < cd_qmax d -> (1 <= length y)%nat -> 4 * cd_qmax d * cd_deltar d * INR (length y) <= 1000000000 ->
  exists z, cutoff (cd_qmax d) (cd_deltar d) y = Ok z /\ length z = length y /\ (In None y -> forall k, nth k z None = None).
Proof.
  intros Q L B. unfold cutoff. destruct (all_fin y) as [l|] eqn:E.
  - pose proof (all_fin_len l y E) as LE. destruct (cutoff_ok (cd_qmax d) (cd_deltar d) l) as (out & EO & (P & _ & LO & _)); auto. apply G. lia. rewrite LE; auto.
    rewrite EO. exists (map Some out). split; auto. split. rewrite map_length. congruence. intros I. apply all_fin_none in I. congruence.
  - exists (map (fun _ => None) y). split; auto. split. apply map_length. intros _ k. clear. revert k. induction y; destruct k; simpl; auto.
Qed.

Lemma skip_nth (l : list num) a b : nth b (skipn a l) None = nth (a + b) l None.
Proof. revert l. induction a; intros l; auto. destruct l; [destruct b; reflexivity|]. apply IHa. Qed.

Lemma determine_any psel : good_filter d -> (forall e, In e (selected_entries psel) -> cell_ok e) ->
  exists f0, forall fuel, (f0 <= fuel)%nat -> exists t, determine fuel d psel = Ok (idx d (cd_rfmin d), idx d (cd_rfmax d), t) /\ length t = N /\
  (forall g, (0 <= g < lo)%Z -> el t g = Some 0) /\
  ((exists e, In e (selected_entries psel) /\ spoiler d e) -> spoiled t) /\
  (selected_entries psel <> [] -> forall g0, (lo <= g0 <= hi)%Z -> grid d g0 = 0 -> el t g0 = None /\ (0 < cd_qmax d -> spoiled t)).
Proof.
  intros GF H. destruct (phases_any psel H) as (f0 & R). exists f0. intros fuel Hf. destruct (R fuel (repeat (Some 0) N) Hf) as (t & E & [L X] & SP & OR). apply repeat_length.
  pose proof (lo_hi d G) as LH. fold lo hi in LH.
  pose proof (calc_order d G) as ((C1 & C2) & C3). pose proof G as (D & P0 & [R1 R2] & B).
  assert (DET : determine fuel d psel = if Rlt_dec 0 (cd_qmax d) then omap (fun y => (idx d (cd_rfmin d), idx d (cd_rfmax d), firstn (Z.to_nat lo) t ++ y)) (cutoff (cd_qmax d) (cd_deltar d) (skipn (Z.to_nat lo) t)) else Ok (idx d (cd_rfmin d), idx d (cd_rfmax d), t)).
  { unfold determine. rewrite (nint_grid d G (cd_rfmin d)) by lra. rewrite (nint_grid d G (cd_rfmax d)) by lra. rewrite (calc_range_ok d G). cbn [obind].
    fold lo hi. destruct (Z.ltb_spec (hi + 1) 0); [lia|]. fold N. rewrite E. cbn [obind].
    fold (idx d (cd_rfmin d)) (idx d (cd_rfmax d)). destruct (Rlt_dec 0 (cd_qmax d)); auto. destruct (Z.ltb_spec lo 0); [lia|]. destruct (Z.ltb_spec hi lo); [lia|]. reflexivity. }
  assert (BL : forall g, (0 <= g < lo)%Z -> el t g = Some 0). { intros g Hg. destruct (X g ltac:(lia)) as [-> _]; [|lia]. apply el_repeat. unfold N. lia. }
  rewrite DET. destruct (Rlt_dec 0 (cd_qmax d)) as [Q|Q].
  - assert (LS : length (skipn (Z.to_nat lo) t) = Z.to_nat (hi - lo + 1)) by (rewrite skipn_length, L; unfold N; lia).
    destruct (cutoff_any (skipn (Z.to_nat lo) t) Q) as (z & EZ & LZ & NZ).
    + rewrite LS. lia.
    + rewrite LS. specialize (GF Q).
      assert (INR (Z.to_nat (hi - lo + 1)) * cd_deltar d <= calc_hi d - calc_lo d + 2 * cd_deltar d).
      { rewrite INR_IZR_INZ, Z2Nat.id, plus_IZR, minus_IZR by lia.
        pose proof (idx_nearest d G (calc_lo d) ltac:(lra)) as [A1 A2]. pose proof (idx_nearest d G (calc_hi d) ltac:(lra)) as [B1 B2]. fold lo in A1, A2. fold hi in B1, B2. unfold grid in *. lra. }
      assert (4 * cd_qmax d * (INR (Z.to_nat (hi - lo + 1)) * cd_deltar d) <= 4 * cd_qmax d * (calc_hi d - calc_lo d + 2 * cd_deltar d)) by (apply Rmult_le_compat_l; lra). lra.
    + rewrite EZ. cbn [omap obind]. exists (firstn (Z.to_nat lo) t ++ z). split; auto.
      assert (LF : length (firstn (Z.to_nat lo) t) = Z.to_nat lo) by (rewrite firstn_length, L; unfold N; lia).
      assert (SPZ : In None (skipn (Z.to_nat lo) t) -> spoiled (firstn (Z.to_nat lo) t ++ z)).
      { intros I g Hg. unfold el. rewrite app_nth2 by lia. apply NZ; auto. }
      assert (INN : forall g, (lo <= g <= hi)%Z -> el t g = None -> In None (skipn (Z.to_nat lo) t)).
      { intros g Hg Nn. rewrite <- Nn. unfold el. replace (Z.to_nat g) with (Z.to_nat lo + Z.to_nat (g - lo))%nat by lia. rewrite <- skip_nth. apply nth_In. lia. }
      split. { rewrite app_length, LF, LZ, LS. unfold N. lia. }
      split. { intros g Hg. rewrite <- (BL g Hg). unfold el. rewrite app_nth1 by lia. rewrite <- (firstn_skipn (Z.to_nat lo) t) at 2. rewrite app_nth1; auto. lia. }
      split. { intros S. apply SPZ. apply (INN lo). lia. apply SP; auto. lia. }
      intros S g0 Hg Z. pose proof (SPZ (INN g0 Hg (OR S g0 Hg Z))) as SS. split; auto.
  - exists t. split; auto. split; auto. split; auto. split; auto. intros S g0 Hg Z. split; auto. intros; lra.
Qed.
End Safe.
