(** Proofs: sums over atoms and pairs of relisted phases. *)
From Coq Require Import List Arith ZArith Reals Bool Lia Lra Permutation FinFun.
From Verif Require Import Base RSum MathModel MetricModel MetricSpec SphereModel SphereProof PdfModel PdfSpec PdfProof PdfGeo PdfSum PdfPeak PdfPhase PdfFft PdfTotal RelSpec.
Import ListNotations.
Local Open Scope R_scope.

(** ** sums *)
Lemma inj_nodup {A B} (f : A -> B) l : (forall x y, In x l -> In y l -> f x = f y -> x = y) -> NoDup l -> NoDup (map f l).
Proof.
  intros I N. induction N as [|a l H N IH]; cbn; constructor.
  - intros X. apply in_map_iff in X. destruct X as (b & E & J). apply H. rewrite (I a b); auto. left; auto. right; auto.
  - apply IH. intros. apply I; auto; right; auto.
Qed.
Lemma lsum_perm {A} (f : A -> R) l l' : Permutation l l' -> lsum f l = lsum f l'.
Proof. intros P. unfold lsum. induction P; cbn; lra. Qed.
Lemma lsum_map {A B} (f : B -> R) (h : A -> B) l : lsum f (map h l) = lsum (fun a => f (h a)) l.
Proof. unfold lsum. induction l; cbn; auto. rewrite IHl. auto. Qed.
Lemma rsum_pick n m (F : nat -> R) : (m < n)%nat -> rsum n (fun i => if (m =? i)%nat then F i else 0) = F m.
Proof. intros H. rewrite (rsum_single n _ m); auto. rewrite Nat.eqb_refl; auto. intros i _ D. destruct (Nat.eqb_spec m i); auto. congruence. Qed.

(** occupancies add up *)
Lemma regroup n n' (m : nat -> nat) (occ occ' : nat -> R) : (forall x, (x < n')%nat -> (m x < n)%nat) ->
  (forall i, (i < n)%nat -> occ i = rsum n' (fun x => if (m x =? i)%nat then occ' x else 0)) ->
  forall F, rsum n' (fun x => occ' x * F (m x)) = rsum n (fun i => occ i * F i).
Proof.
  intros M O F. transitivity (rsum n' (fun x => rsum n (fun i => (if (m x =? i)%nat then occ' x else 0) * F i))).
  - apply rsum_ext. intros x Hx. rewrite (rsum_single n _ (m x)); auto. rewrite Nat.eqb_refl; auto. intros i _ D. destruct (Nat.eqb_spec (m x) i); [congruence|ring].
  - rewrite rsum_swap. apply rsum_ext. intros i Hi. rewrite O by auto. rewrite rsum_scal_r. reflexivity.
Qed.
Lemma rsum_bij n (m : nat -> nat) : (forall x, (x < n)%nat -> (m x < n)%nat) -> (forall x y, (x < n)%nat -> (y < n)%nat -> m x = m y -> x = y) ->
  forall F, rsum n (fun x => F (m x)) = rsum n F.
Proof.
  intros M I F. rewrite <- !lsum_seq. rewrite <- (lsum_map F m). apply lsum_perm. apply NoDup_Permutation_bis.
  - apply inj_nodup; [|apply seq_NoDup]. intros x y Hx Hy. apply in_seq in Hx, Hy. apply I; lia.
  - rewrite map_length. auto.
  - intros y Hy. apply in_map_iff in Hy. destruct Hy as (x & <- & Hx). apply in_seq in Hx. apply in_seq. specialize (M x). lia.
Qed.

(** ** the pairs of two atoms *)
Definition at_pair (W : list pairT) (i j : nat) : list (Z * Z * Z) :=
  map snd (filter (fun x => ((fst (fst x) =? i) && (snd (fst x) =? j))%nat) W).
Lemma at_pair_in W i j t : In t (at_pair W i j) <-> In (i, j, t) W.
Proof.
  unfold at_pair. rewrite in_map_iff. split.
  - intros ([[a b] t'] & E & H). apply filter_In in H. destruct H as (H & C). cbn in *. apply andb_prop in C. destruct C as (C1 & C2). apply Nat.eqb_eq in C1, C2. subst. auto.
  - intros H. exists (i, j, t). split; auto. apply filter_In. split; auto. cbn. rewrite !Nat.eqb_refl. auto.
Qed.
Lemma at_pair_nodup W i j : NoDup W -> NoDup (at_pair W i j).
Proof.
  intros N. unfold at_pair. apply inj_nodup; [|apply NoDup_filter; auto].
  intros [[a b] t] [[a' b'] t'] H H'. apply filter_In in H, H'. destruct H as (_ & H), H' as (_ & H'). cbn in *. apply andb_prop in H, H'. destruct H as (H1 & H2), H' as (H3 & H4).
  apply Nat.eqb_eq in H1, H2, H3, H4. intros ->. subst. auto.
Qed.
Lemma by_pairs n (f : pairT -> R) W : (forall x, In x W -> (fst (fst x) < n)%nat /\ (snd (fst x) < n)%nat) ->
  lsum f W = rsum n (fun i => rsum n (fun j => lsum (fun t => f (i, j, t)) (at_pair W i j))).
Proof.
  induction W as [|[[a b] t] W IH]; intros H.
  - cbn. rewrite rsum_zero; auto. intros. apply rsum_zero; auto.
  - destruct (H (a, b, t) (or_introl eq_refl)) as (Ha & Hb). cbn in Ha, Hb. cbn [lsum fold_right]. fold (lsum f W). rewrite IH by (intros; apply H; right; auto).
    transitivity (rsum n (fun i => rsum n (fun j => (if (a =? i)%nat then (if (b =? j)%nat then f (a, b, t) else 0) else 0) + lsum (fun t => f (i, j, t)) (at_pair W i j)))).
    + symmetry. transitivity (rsum n (fun i => (if (a =? i)%nat then f (a, b, t) else 0) + rsum n (fun j => lsum (fun t => f (i, j, t)) (at_pair W i j)))).
      * apply rsum_ext. intros i Hi. rewrite rsum_plus. f_equal. destruct (a =? i)%nat. apply (rsum_pick n b (fun _ => f (a, b, t))); auto. apply rsum_zero; auto.
      * rewrite rsum_plus. f_equal. apply (rsum_pick n a (fun _ => f (a, b, t))); auto.
    + apply rsum_ext. intros i Hi. apply rsum_ext. intros j Hj. unfold at_pair. cbn [filter fst snd].
      destruct (Nat.eqb_spec a i) as [->|]; [destruct (Nat.eqb_spec b j) as [->|]|]; cbn [andb]; unfold lsum; cbn; lra.
Qed.
(** two lists with corresponding elements *)
Lemma lsum_shift {A} (f f' : A -> R) (s u : A -> A) l l' : NoDup l -> NoDup l' -> (forall t, u (s t) = t) -> (forall t, s (u t) = t) ->
  (forall t, In t l' <-> In (s t) l) -> (forall t, In t l' -> f' t = f (s t)) -> lsum f' l' = lsum f l.
Proof.
  intros N N' US SU H E. rewrite (lsum_ext f' (fun t => f (s t))) by auto. rewrite <- lsum_map. apply lsum_perm. apply NoDup_Permutation; auto.
  - apply FinFun.Injective_map_NoDup; auto. intros x y Q. rewrite <- (US x), <- (US y), Q. auto.
  - intros t. rewrite in_map_iff. split. intros (x & <- & I). apply H; auto. intros I. exists (u t). split; auto. apply H. rewrite SU. auto.
Qed.

(** ** one phase *)
Lemma contr_same d p l g ax ay bx b_y t t' : at_u ax = at_u bx -> at_u ay = at_u b_y -> sep (with_atoms p l) ax ay t = sep p bx b_y t' ->
  (contributes d (with_atoms p l) ax ay t g <-> contributes d p bx b_y t' g) /\ pair_height d (with_atoms p l) ax ay t g = pair_height d p bx b_y t' g.
Proof.
  intros U1 U2 S. unfold contributes, pair_height, width, msd. rewrite S, U1, U2. split; reflexivity.
Qed.
Lemma radial_value d e W g s : radial d (en_ph e) W g s -> s = lsum (value d e g) W.
Proof.
  intros (f & H & ->). apply lsum_ext. intros x Hx. specialize (H x Hx). pose proof (value_term d e g x) as V. destruct x as [[i j] t]. unfold pair_term in *. destruct H as (H1 & H2), V as (V1 & V2).
  destruct (contributes_dec d (en_ph e) (atom_no (en_ph e) i) (atom_no (en_ph e) j) t g). rewrite H1, V1; auto. rewrite H2, V2; auto.
Qed.
Lemma all_pairs d e W : complete e -> pair_list d e W -> forall x, In x W <-> is_pair d e x.
Proof.
  intros (C & S) (_ & P1 & P2) x. split; auto. destruct x as [[i j] t]. intros H. apply P2; auto. unfold below_stepcut. intros; lra.
Qed.

Section Placed.
Variables (d : cdata) (e : centry) (l : list catom) (de' : cderived) (gi gj : nat -> bool) (m : nat -> nat) (v : v3) (g : Z).
Let p := en_ph e.
Let p' := with_atoms p l.
Let e' := mkEnt p' de' gi gj.
Let n := natoms p.
Let n' := natoms p'.
Hypothesis M : forall x, (x < n')%nat -> (m x < n)%nat /\ moved (cp_icc p) v (atom_no p (m x)) (atom_no p' x).
Hypothesis OCC : forall i, (i < n)%nat -> at_occ (atom_no p i) = rsum n' (fun x => if (m x =? i)%nat then at_occ (atom_no p' x) else 0).
Hypothesis FL : forall x, (x < n')%nat -> gi x = en_igni e (m x) /\ gj x = en_ignj e (m x).

Lemma occ_regroup F : rsum n' (fun x => at_occ (atom_no p' x) * F (m x)) = rsum n (fun i => at_occ (atom_no p i) * F i).
Proof. apply regroup. intros x Hx. apply M; auto. exact OCC. Qed.
Lemma occ_same : occ_sum p' = occ_sum p.
Proof.
  unfold occ_sum. fold n n'. transitivity (rsum n' (fun x => at_occ (atom_no p' x) * (fun _ => 1) (m x))). apply rsum_ext; intros; ring. rewrite (occ_regroup (fun _ => 1)). apply rsum_ext; intros; ring.
Qed.
Lemma mean_same : mean_sf d p' = mean_sf d p.
Proof.
  unfold mean_sf. rewrite occ_same. f_equal. fold n n'. rewrite <- (occ_regroup (fun i => at_sf (atom_no p i) (cd_type d))). apply rsum_ext. intros x Hx.
  destruct (M x Hx) as (_ & _ & S & _). rewrite S. auto.
Qed.
Lemma weight_same x : (x < n')%nat -> weight_no d p' x = weight_no d p (m x).
Proof. intros Hx. unfold weight_no. rewrite mean_same. destruct (M x Hx) as (_ & _ & S & _). rewrite S. auto. Qed.
Lemma density_same : density p' = density p.
Proof. unfold density. rewrite occ_same. reflexivity. Qed.
Lemma counted_same x y : (x < n')%nat -> (y < n')%nat -> counted gi gj x y = counted (en_igni e) (en_ignj e) (m x) (m y).
Proof.
  intros Hx Hy. unfold counted. destruct (FL x Hx) as (-> & ->), (FL y Hy) as (-> & ->). reflexivity.
Qed.
Lemma share_same : (all_counted e /\ all_counted e' \/ same_ignored e e' m) -> rsum n (weight_no d p) <> 0 -> rsum n' (weight_no d p') <> 0 ->
  counted_share d p' gi gj = counted_share d p (en_igni e) (en_ignj e).
Proof.
  intros IGN W0 W1. unfold counted_share. fold n n'. destruct IGN as [[A A']|(NN & INJ & S)].
  - assert (T : forall k (w : nat -> R) hi hj, rsum k w <> 0 -> (forall i, (i < k)%nat -> hi i = false /\ hj i = false) ->
      rsum k (fun i => rsum k (fun j => if counted hi hj i j then w i * w j else 0)) / (rsum k w * rsum k w) = 1).
    { intros k w hi hj NZ H. rewrite (rsum_ext k _ (fun i => w i * rsum k w)).
      - rewrite rsum_scal_r. field. auto.
      - intros i Hi. rewrite <- rsum_scal. apply rsum_ext. intros j Hj. unfold counted. destruct (H i Hi) as (-> & ->), (H j Hj) as (-> & ->). reflexivity. }
    rewrite (T n'), (T n); auto.
  - cbn in NN, INJ. fold p' n' in NN, INJ. fold p n in NN.
    assert (B : forall F, rsum n' (fun x => F (m x)) = rsum n F). { intros F. rewrite <- NN. apply rsum_bij; auto. intros x Hx. rewrite NN. apply M; auto. }
    assert (E2 : rsum n' (weight_no d p') = rsum n (weight_no d p)). { rewrite <- B. apply rsum_ext. intros; apply weight_same; auto. }
    rewrite E2. f_equal. rewrite <- (B (fun i => rsum n (fun j => if counted (en_igni e) (en_ignj e) i j then weight_no d p i * weight_no d p j else 0))).
    apply rsum_ext. intros x Hx. rewrite <- (B (fun j => if counted (en_igni e) (en_ignj e) (m x) j then weight_no d p (m x) * weight_no d p j else 0)).
    apply rsum_ext. intros y Hy. rewrite counted_same, !weight_same by auto. reflexivity.
Qed.

(** the height of a pair without occupancies *)
Let K (i j : nat) (t : Z * Z * Z) : R :=
  if contributes_dec d p (atom_no p i) (atom_no p j) t g then weight_no d p i * weight_no d p j * pair_height d p (atom_no p i) (atom_no p j) t g else 0.
Lemma value_K i j t : value d e g (i, j, t) = at_occ (atom_no p i) * (at_occ (atom_no p j) * K i j t).
Proof. unfold value, K. fold p. destruct (contributes_dec _ _ _ _ _ _); ring. Qed.
Lemma pair_shift x y : (x < n')%nat -> (y < n')%nat -> exists s u, (forall t, u (s t) = t) /\ (forall t, s (u t) = t) /\
  forall t, sep p' (atom_no p' x) (atom_no p' y) t = sep p (atom_no p (m x)) (atom_no p (m y)) (s t).
Proof.
  intros Hx Hy. destruct (M x Hx) as (_ & _ & _ & Px), (M y Hy) as (_ & _ & _ & Py).
  destruct (Px 0%nat ltac:(lia)) as (x0 & X0), (Px 1%nat ltac:(lia)) as (x1 & X1), (Px 2%nat ltac:(lia)) as (x2 & X2).
  destruct (Py 0%nat ltac:(lia)) as (y0 & Y0), (Py 1%nat ltac:(lia)) as (y1 & Y1), (Py 2%nat ltac:(lia)) as (y2 & Y2).
  exists (fun t => let '(a, b, c) := t in (a + y0 - x0, b + y1 - x1, c + y2 - x2)%Z), (fun t => let '(a, b, c) := t in (a - y0 + x0, b - y1 + x1, c - y2 + x2)%Z).
  split; [|split]; try (intros [[a b] c]; f_equal; [f_equal|]; lia).
  intros [[a b] c]. unfold sep. fold p. change (cp_icc p') with (cp_icc p). rewrite X0, X1, X2, Y0, Y1, Y2. f_equal; rewrite ?minus_IZR, ?plus_IZR; ring.
Qed.
Lemma value_same x y s : (x < n')%nat -> (y < n')%nat -> (forall t, sep p' (atom_no p' x) (atom_no p' y) t = sep p (atom_no p (m x)) (atom_no p (m y)) (s t)) ->
  forall t, value d e' g (x, y, t) = at_occ (atom_no p' x) * (at_occ (atom_no p' y) * K (m x) (m y) (s t)).
Proof.
  intros Hx Hy S t. destruct (M x Hx) as (_ & Ux & _), (M y Hy) as (_ & Uy & _).
  destruct (contr_same d p l g (atom_no p' x) (atom_no p' y) (atom_no p (m x)) (atom_no p (m y)) t (s t) Ux Uy (S t)) as (C & H).
  unfold value, K. cbn [e' en_ph]. rewrite !weight_same by auto. fold p' in C, H. rewrite H.
  destruct (contributes_dec d p' _ _ _ _) as [A|A], (contributes_dec d p _ _ _ _) as [B|B]; try tauto; ring.
Qed.
Variables (W W' : list pairT).
Hypothesis (C : complete e) (C' : complete e') (PL : pair_list d e W) (PL' : pair_list d e' W').
Lemma sums_same : lsum (value d e' g) W' = lsum (value d e g) W.
Proof.
  pose proof (all_pairs d e W C PL) as A. pose proof (all_pairs d e' W' C' PL') as A'.
  rewrite (by_pairs n' _ W'), (by_pairs n _ W).
  2:{ intros [[i j] t] H. apply A in H. split; apply H. } 2:{ intros [[i j] t] H. apply A' in H. split; apply H. }
  set (k i j := lsum (K i j) (at_pair W i j)).
  transitivity (rsum n' (fun x => at_occ (atom_no p' x) * rsum n (fun j => at_occ (atom_no p j) * k (m x) j))).
  - apply rsum_ext. intros x Hx. rewrite <- (occ_regroup (k (m x))), <- rsum_scal. apply rsum_ext. intros y Hy.
    destruct (pair_shift x y Hx Hy) as (s & u & US & SU & S).
    transitivity (lsum (fun t => at_occ (atom_no p' x) * (at_occ (atom_no p' y) * K (m x) (m y) (s t))) (at_pair W' x y)).
    { apply lsum_ext. intros t _. apply value_same; auto. }
    rewrite lsum_scal, lsum_scal. f_equal. f_equal. unfold k. apply (lsum_shift _ _ s u); auto.
    + apply at_pair_nodup, PL. + apply at_pair_nodup, PL'.
    + intros t. rewrite !at_pair_in, A, A'. unfold is_pair. cbn [e' en_ph en_igni en_ignj]. fold p n n'.
      rewrite (counted_same x y) by auto. rewrite S. change (length_of p') with (length_of p). pose proof (proj1 (M x Hx)). pose proof (proj1 (M y Hy)). tauto.
  - rewrite (occ_regroup (fun i => rsum n (fun j => at_occ (atom_no p j) * k i j))). apply rsum_ext. intros i Hi. rewrite <- rsum_scal. apply rsum_ext. intros j Hj.
    unfold k. rewrite <- lsum_scal, <- lsum_scal. apply lsum_ext. intros t _. symmetry. apply value_K.
Qed.
Lemma pdf_share V V' : phase_pdf d e W g V -> phase_pdf d e' W' g V' ->
  V' = V + envelope d p (grid d g) * (4 * PI * grid d g * density p * (counted_share d p (en_igni e) (en_ignj e) - counted_share d p' gi gj)).
Proof.
  intros (s & S & ->) (s' & S' & ->). apply radial_value in S. apply radial_value in S'. cbn [e' en_ph en_igni en_ignj]. fold p. rewrite S, S', sums_same, occ_same, density_same.
  change (envelope d p') with (envelope d p). ring.
Qed.
Lemma pdf_same1 V V' : (all_counted e /\ all_counted e' \/ same_ignored e e' m) -> rsum n (weight_no d p) <> 0 -> rsum n' (weight_no d p') <> 0 -> phase_pdf d e W g V -> phase_pdf d e' W' g V' -> V' = V.
Proof. intros IGN N0 N1 H H'. rewrite (pdf_share V V'); auto. rewrite share_same by auto. ring. Qed.
End Placed.
Lemma flags e p' de' gi gj m : (forall x, (x < natoms p')%nat -> (m x < natoms (en_ph e))%nat) -> (all_counted e /\ all_counted (mkEnt p' de' gi gj) \/ same_ignored e (mkEnt p' de' gi gj) m) ->
  forall x, (x < natoms p')%nat -> gi x = en_igni e (m x) /\ gj x = en_ignj e (m x).
Proof.
  intros M [[A A']|(_ & _ & S)] x Hx; [|apply S; auto]. destruct (A _ (M x Hx)) as (-> & ->). apply (A' x Hx).
Qed.
