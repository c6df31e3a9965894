(** Proofs about PointsInSphere. *)
From Coq Require Import List FinFun ZArith Reals Bool Lia Lra Psatz Nsatz.
From Verif Require Import Base MathModel MetricModel MetricSpec MetricProof SphereModel SphereSpec.
Import ListNotations.
Local Open Scope Z_scope.

(** * floor and ceil *)
Lemma zfloor_spec x : (IZR (zfloor x) <= x < IZR (zfloor x) + 1)%R.
Proof. unfold zfloor. destruct (archimed x). rewrite minus_IZR. lra. Qed.
Lemma zfloor_lt x n : zfloor x < n <-> (x < IZR n)%R.
Proof.
  destruct (zfloor_spec x) as [A B]. split; intros H.
  - assert (zfloor x + 1 <= n) by lia. apply IZR_le in H0. rewrite plus_IZR in H0. lra.
  - apply lt_IZR. lra.
Qed.
Lemma zceil_gt x n : n < zceil x <-> (IZR n < x)%R.
Proof.
  unfold zceil. rewrite <- Z.opp_lt_mono with (n := n) || idtac.
  assert (E : n < - zfloor (- x) <-> zfloor (- x) < - n) by lia. rewrite E, zfloor_lt, opp_IZR. lra.
Qed.
Lemma zceil_le x n : zceil x <= n <-> (x <= IZR n)%R.
Proof. pose proof (zceil_gt x n). lia || (split; intros; [destruct (Rle_dec x (IZR n)); auto; assert (n < zceil x) by (apply zceil_gt; lra); lia|destruct (Z_lt_le_dec n (zceil x)); auto; apply zceil_gt in l; lra]). Qed.

(** * integers strictly between two bounds *)
Definition zr (a b : Z) : list Z := map (fun i => a + 1 + Z.of_nat i) (seq 0 (Z.to_nat (b - a - 1))).
Lemma zr_nil a b : b <= a + 1 -> zr a b = [].
Proof. intros H. unfold zr. replace (Z.to_nat (b - a - 1)) with O by lia. auto. Qed.
Lemma zr_cons a b : a + 1 < b -> zr a b = (a + 1) :: zr (a + 1) b.
Proof.
  intros H. unfold zr. replace (Z.to_nat (b - a - 1)) with (S (Z.to_nat (b - (a + 1) - 1))) by lia. cbn [seq map]. f_equal. lia.
  rewrite <- seq_shift, map_map. apply map_ext. intros i. lia.
Qed.
Lemma zr_in a b x : In x (zr a b) <-> a < x < b.
Proof.
  unfold zr. rewrite in_map_iff. split.
  - intros (i & <- & I). apply in_seq in I. lia.
  - intros H. exists (Z.to_nat (x - a - 1)). split. lia. apply in_seq. lia.
Qed.
Lemma zr_nodup a b : NoDup (zr a b).
Proof. unfold zr. apply FinFun.Injective_map_NoDup. intros x y E. lia. apply seq_NoDup. Qed.

(** * more fuel does not change a result *)
Section K.
Variable k : sph_const.

Lemma visit_S f s : visit (S f) k s = obind (next_o f k s) (fun s => if finished s then Ok [] else omap (cons (s_m s, s_n s, s_o s)) (visit f k s)).
Proof. reflexivity. Qed.

Lemma next_n_mono f : forall f' s t, (f <= f')%nat -> next_n f k s = Ok t -> next_n f' k s = Ok t.
Proof.
  induction f as [|f IH]; intros f' s t L H. discriminate. destruct f' as [|f']; [lia|]. cbn [next_n] in *.
  destruct (_ <? _); auto. destruct (finished _); auto. apply IH; auto. lia.
Qed.
Lemma next_o_mono f : forall f' s t, (f <= f')%nat -> next_o f k s = Ok t -> next_o f' k s = Ok t.
Proof.
  induction f as [|f IH]; intros f' s t L H. discriminate. destruct f' as [|f']; [lia|]. cbn [next_o] in *. cbv zeta in *.
  destruct (_ <? _); auto. destruct (negb _). destruct (finished _); auto. apply IH; auto; lia.
  destruct (next_n f k _) as [u| | |] eqn:E; try discriminate. rewrite (next_n_mono f f' _ _ ltac:(lia) E). cbn [obind] in *.
  destruct (finished u); auto. apply IH; auto; lia.
Qed.
Lemma visit_mono f : forall f' s t, (f <= f')%nat -> visit f k s = Ok t -> visit f' k s = Ok t.
Proof.
  induction f as [|f IH]; intros f' s t L H. discriminate. destruct f' as [|f']; [lia|]. cbn [visit] in *.
  destruct (next_o f k s) as [u| | |] eqn:E; try discriminate. rewrite (next_o_mono f f' _ _ ltac:(lia) E). cbn [obind] in *.
  destruct (finished u); auto. destruct (visit f k u) as [l| | |] eqn:E2; try discriminate. rewrite (IH f' u l ltac:(lia) E2). auto.
Qed.

Definition Runs (s : sph) (L : list (Z * Z * Z)) : Prop := exists f, visit f k s = Ok L.
Definition NextN (s t : sph) : Prop := exists f, next_n f k s = Ok t.
Definition Cont (s : sph) (L : list (Z * Z * Z)) : Prop :=
  exists t, NextN s t /\ ((finished t = true /\ L = []) \/ (finished t = false /\ Runs t L)).

Definition at_o (s : sph) (o : Z) : sph := mkSp (s_m s) (s_n s) o (s_him s) (s_hin s) (s_hio s) (s_outo s) (s_n0 s) (s_o0p s) (s_o0l s) (s_excl s) (s_rp2 s).
Definition at_n (s : sph) (n : Z) : sph := mkSp (s_m s) n (s_o s) (s_him s) (s_hin s) (s_hio s) (s_outo s) (s_n0 s) (s_o0p s) (s_o0l s) (s_excl s) (s_rp2 s).
Definition second (s : sph) : sph := mkSp (s_m s) (s_n s) (zceil (s_o0l s + s_excl s) - 1) (s_him s) (s_hin s) (s_outo s) (s_outo s) (s_n0 s) (s_o0p s) (s_o0l s) (s_excl s) (s_rp2 s).

Lemma runs_point s L : s_m s < s_him s -> s_o s + 1 < s_hio s -> Runs (at_o s (s_o s + 1)) L -> Runs s ((s_m s, s_n s, s_o s + 1) :: L).
Proof.
  intros M O [f R]. exists (S (S f)). rewrite visit_S. cbn [next_o]. cbv zeta. cbn [s_hio]. destruct (Z.ltb_spec (s_o s + 1) (s_hio s)); [|lia].
  cbn [obind]. unfold finished. cbn [s_m s_him s_n s_o]. destruct (Z.ltb_spec (s_m s) (s_him s)); [|lia]. cbn [negb].
  change (mkSp _ _ _ _ _ _ _ _ _ _ _ _) with (at_o s (s_o s + 1)). rewrite (visit_mono f (S f) _ _ ltac:(lia) R). auto.
Qed.

Lemma runs_second s L : s_m s < s_him s -> s_hio s <= s_o s + 1 -> s_hio s <> s_outo s -> Runs (second s) L -> Runs s L.
Proof.
  intros M O N [f R]. destruct f as [|f]; [discriminate|]. exists (S (S f)). rewrite visit_S in R |- *. cbn [next_o]. cbv zeta.
  cbn [s_m s_n s_o s_him s_hin s_hio s_outo s_n0 s_o0p s_o0l s_excl s_rp2]. destruct (Z.ltb_spec (s_o s + 1) (s_hio s)); [lia|].
  destruct (Z.eqb_spec (s_hio s) (s_outo s)); [lia|]. cbn [negb]. unfold finished at 1. cbn [s_m s_him].
  destruct (Z.ltb_spec (s_m s) (s_him s)); [|lia]. cbn [negb]. change (mkSp _ _ _ _ _ _ _ _ _ _ _ _) with (second s).
  destruct (next_o f k (second s)) as [u| | |]; try discriminate. cbn [obind] in *. destruct (finished u); auto.
  destruct (visit f k u) as [l| | |] eqn:E; try discriminate. rewrite (visit_mono f (S f) _ _ ltac:(lia) E). auto.
Qed.

Lemma runs_next s L : s_hio s <= s_o s + 1 -> s_hio s = s_outo s -> Cont (at_o s (s_o s + 1)) L -> Runs s L.
Proof.
  intros O E (t & [f1 N] & C). destruct C as [[F ->]|[F [f2 R]]].
  - exists (S (S f1)). rewrite visit_S. cbn [next_o]. cbv zeta. cbn [s_m s_n s_o s_him s_hin s_hio s_outo s_n0 s_o0p s_o0l s_excl s_rp2].
    destruct (Z.ltb_spec (s_o s + 1) (s_hio s)); [lia|]. destruct (Z.eqb_spec (s_hio s) (s_outo s)); [|lia]. cbn [negb].
    change (mkSp _ _ _ _ _ _ _ _ _ _ _ _) with (at_o s (s_o s + 1)). rewrite N. cbn [obind]. rewrite F. cbn [obind]. rewrite F. auto.
  - exists (S (S (f1 + f2))). rewrite visit_S. cbn [next_o]. cbv zeta. cbn [s_m s_n s_o s_him s_hin s_hio s_outo s_n0 s_o0p s_o0l s_excl s_rp2].
    destruct (Z.ltb_spec (s_o s + 1) (s_hio s)); [lia|]. destruct (Z.eqb_spec (s_hio s) (s_outo s)); [|lia]. cbn [negb].
    change (mkSp _ _ _ _ _ _ _ _ _ _ _ _) with (at_o s (s_o s + 1)). rewrite (next_n_mono f1 (f1 + f2) _ _ ltac:(lia) N). cbn [obind]. rewrite F.
    destruct f2 as [|f2]; [discriminate|]. rewrite visit_S in R. destruct (next_o f2 k t) as [u| | |] eqn:E2; try discriminate.
    rewrite (next_o_mono f2 (f1 + S f2) _ _ ltac:(lia) E2). cbn [obind] in *. destruct (finished u); auto.
    destruct (visit f2 k u) as [l| | |] eqn:E3; try discriminate. change (S (f1 + S f2)) with (S f1 + S f2)%nat. rewrite (visit_mono f2 (S f1 + S f2) _ _ ltac:(lia) E3). auto.
Qed.

(** next_n looks at the plane only *)
Definition same_plane (s t : sph) : Prop :=
  s_m s = s_m t /\ s_n s = s_n t /\ s_him s = s_him t /\ s_hin s = s_hin t /\ s_n0 s = s_n0 t /\ s_o0p s = s_o0p t /\ s_rp2 s = s_rp2 t.

Lemma set_line_same s t n : same_plane s t -> set_line k s n = set_line k t n.
Proof. intros (E1 & E2 & E3 & E4 & E5 & E6 & E7). unfold set_line. rewrite E1, E3, E4, E5, E6, E7. auto. Qed.
Lemma finished_same s t : same_plane s t -> finished s = finished t.
Proof. intros (E1 & E2 & E3 & _). unfold finished. rewrite E1, E3. auto. Qed.
Lemma next_m_same s t : s_m s = s_m t -> s_him s = s_him t -> finished (next_m k s) = finished (next_m k t) /\
  (finished (next_m k s) = false -> same_plane (next_m k s) (next_m k t)).
Proof.
  intros E1 E3. unfold next_m, finished. cbn [s_m s_him]. rewrite E1, E3. destruct (s_m t + 1 <? s_him t) eqn:Q; cbn [negb s_m s_him]; rewrite ?Q; cbn [negb].
  - split; auto. intros _. repeat split.
  - split; auto. discriminate.
Qed.
Lemma next_n_same f : forall s t u, same_plane s t -> next_n f k s = Ok u -> exists u', next_n f k t = Ok u' /\ finished u' = finished u /\ (finished u = false -> u' = u).
Proof.
  induction f as [|f IH]; intros s t u P H. discriminate. cbn [next_n] in *. destruct P as (E1 & E2 & E3 & E4 & E5 & E6 & E7). rewrite <- E2, <- E4.
  destruct (s_n s + 1 <? s_hin s).
  - inversion H; subst. exists (set_line k s (s_n s + 1)). rewrite (set_line_same s t) by (repeat split; auto). auto.
  - cbv zeta in *.
    match type of H with context[next_m k ?a] => set (s1 := a) in * end. match goal with |- context[next_m k ?a] => set (t1 := a) in * end.
    destruct (next_m_same s1 t1 E1 E3) as [F P1]. rewrite <- F. destruct (finished (next_m k s1)) eqn:F1.
    + inversion H; subst. eexists. split. reflexivity. rewrite F1. split; auto. discriminate.
    + apply (IH (next_m k s1)); auto.
Qed.
Lemma cont_same s t L : same_plane s t -> Cont s L -> Cont t L.
Proof.
  intros P (u & [f N] & C). destruct (next_n_same f s t u P N) as (u' & N' & F & E). exists u'. split. exists f; auto.
  destruct C as [[C1 C2]|[C1 C2]]. left. split; congruence. right. rewrite (E C1). auto.
Qed.

(** * a line *)
Definition line_rest (s : sph) : list Z :=
  if s_hio s =? s_outo s then zr (s_o s) (s_hio s)
  else zr (s_o s) (s_hio s) ++ zr (zceil (s_o0l s + s_excl s) - 1) (s_outo s).

Lemma line_last N : forall s L, Z.to_nat (s_hio s - s_o s) = N -> s_m s < s_him s -> s_hio s = s_outo s -> Cont s L ->
  Runs s (map (fun o => (s_m s, s_n s, o)) (zr (s_o s) (s_hio s)) ++ L).
Proof.
  induction N as [N IH] using lt_wf_ind. intros s L EN M E C. destruct (Z_lt_le_dec (s_o s + 1) (s_hio s)) as [O|O].
  - rewrite zr_cons by auto. cbn [map app]. apply runs_point; auto.
    apply (IH (Z.to_nat (s_hio s - (s_o s + 1))) ltac:(lia) (at_o s (s_o s + 1))); auto. apply (cont_same s); auto. repeat split.
  - rewrite zr_nil by auto. cbn [map app]. apply runs_next; auto. apply (cont_same s); auto. repeat split.
Qed.

Lemma line_runs N : forall s L, Z.to_nat (s_hio s - s_o s) = N -> s_m s < s_him s -> Cont s L ->
  Runs s (map (fun o => (s_m s, s_n s, o)) (line_rest s) ++ L).
Proof.
  induction N as [N IH] using lt_wf_ind. intros s L EN M C. unfold line_rest. destruct (Z.eqb_spec (s_hio s) (s_outo s)) as [E|E].
  - eapply line_last; eauto.
  - destruct (Z_lt_le_dec (s_o s + 1) (s_hio s)) as [O|O].
    + rewrite zr_cons by auto. cbn [map app]. apply runs_point; auto.
      assert (Q : line_rest (at_o s (s_o s + 1)) = zr (s_o s + 1) (s_hio s) ++ zr (zceil (s_o0l s + s_excl s) - 1) (s_outo s)).
      { unfold line_rest, at_o. cbn [s_hio s_outo s_o s_o0l s_excl]. destruct (Z.eqb_spec (s_hio s) (s_outo s)); tauto. }
      rewrite <- Q. apply (IH (Z.to_nat (s_hio s - (s_o s + 1))) ltac:(lia) (at_o s (s_o s + 1))); auto. apply (cont_same s); auto. repeat split.
    + rewrite zr_nil by auto. cbn [app]. apply runs_second; auto.
      apply (line_last _ (second s) L eq_refl); auto. apply (cont_same s); auto. repeat split.
Qed.

(** * a plane *)
Definition ContM (s : sph) (L : list (Z * Z * Z)) : Prop :=
  let t := next_m k s in (finished t = true /\ L = []) \/ (finished t = false /\ Cont t L).
Lemma contm_same s t L : s_m s = s_m t -> s_him s = s_him t -> ContM s L -> ContM t L.
Proof.
  intros E1 E3 C. destruct (next_m_same s t E1 E3) as [F P]. unfold ContM in *. cbv zeta in *. rewrite <- F. destruct C as [C|[C1 C2]]; auto.
  right. split; auto. apply (cont_same (next_m k s)); auto.
Qed.

Definition plane_rest (s : sph) : list (Z * Z * Z) :=
  flat_map (fun n => map (fun o => (s_m s, n, o)) (line_rest (set_line k s n))) (zr (s_n s) (s_hin s)).

Lemma plane_cont N : forall s L, Z.to_nat (s_hin s - s_n s) = N -> s_m s < s_him s -> ContM s L -> Cont s (plane_rest s ++ L).
Proof.
  induction N as [N IH] using lt_wf_ind. intros s L EN M C. unfold plane_rest. destruct (Z_lt_le_dec (s_n s + 1) (s_hin s)) as [O|O].
  - rewrite zr_cons by auto. cbn [flat_map]. rewrite <- app_assoc. exists (set_line k s (s_n s + 1)). split.
    + exists 1%nat. cbn [next_n]. destruct (Z.ltb_spec (s_n s + 1) (s_hin s)); [auto|lia].
    + right. split. unfold finished, set_line. cbn [s_m s_him]. destruct (Z.ltb_spec (s_m s) (s_him s)); auto; lia.
      apply (line_runs _ (set_line k s (s_n s + 1)) _ eq_refl); auto.
      apply (cont_same (at_n s (s_n s + 1))). repeat split.
      pose proof (IH (Z.to_nat (s_hin s - (s_n s + 1))) ltac:(lia) (at_n s (s_n s + 1)) L eq_refl M) as Q. apply Q.
      apply (contm_same s); auto.
  - rewrite zr_nil by auto. cbn [flat_map app]. unfold ContM in C. cbv zeta in C.
    destruct (next_m_same s (at_n s (s_n s + 1)) eq_refl eq_refl) as [F P].
    destruct C as [[C1 ->]|[C1 C2]].
    + exists (next_m k (at_n s (s_n s + 1))). split. exists 1%nat. cbn [next_n]. destruct (Z.ltb_spec (s_n s + 1) (s_hin s)); [lia|]. cbv zeta.
      change (mkSp _ _ _ _ _ _ _ _ _ _ _ _) with (at_n s (s_n s + 1)). rewrite <- F, C1. auto. left. rewrite <- F. auto.
    + apply (cont_same _ (next_m k (at_n s (s_n s + 1)))) in C2; auto. destruct C2 as (t & [f N1] & C2). exists t. split; auto.
      exists (S f). cbn [next_n]. destruct (Z.ltb_spec (s_n s + 1) (s_hin s)); [lia|]. cbv zeta.
      change (mkSp _ _ _ _ _ _ _ _ _ _ _ _) with (at_n s (s_n s + 1)). rewrite <- F, C1. auto.
Qed.

(** * the sphere *)
(** the state when plane m has just been entered *)
Definition in_plane (him m : Z) : sph :=
  let n0 := (IZR m * k_dn0dm k)%R in
  let rp2 := (k_rmax2 k - (IZR m / k_ar k) * (IZR m / k_ar k))%R in
  let half := (sqrt_pos rp2 * k_b2r k)%R in
  mkSp m (zfloor (n0 - half)) 0 him (zceil (n0 + half)) 0 0 n0 (IZR m * k_do0dm k)%R 0 0 rp2.

Lemma sphere_cont N : forall s, Z.to_nat (s_him s - s_m s) = N -> ContM s (flat_map (fun m => plane_rest (in_plane (s_him s) m)) (zr (s_m s) (s_him s))).
Proof.
  induction N as [N IH] using lt_wf_ind. intros s EN. unfold ContM. cbv zeta. destruct (Z_lt_le_dec (s_m s + 1) (s_him s)) as [O|O].
  - right. rewrite zr_cons by auto. cbn [flat_map].
    assert (P : same_plane (in_plane (s_him s) (s_m s + 1)) (next_m k s)).
    { unfold next_m. unfold finished. cbn [s_m s_him]. destruct (Z.ltb_spec (s_m s + 1) (s_him s)); [|lia]. cbn [negb]. repeat split. }
    split. rewrite <- (finished_same _ _ P). unfold finished, in_plane. cbn [s_m s_him]. destruct (Z.ltb_spec (s_m s + 1) (s_him s)); auto; lia.
    apply (cont_same _ _ _ P). apply (plane_cont _ _ _ eq_refl). cbn. auto.
    apply (IH (Z.to_nat (s_him s - (s_m s + 1))) ltac:(lia) (in_plane (s_him s) (s_m s + 1))). reflexivity.
  - left. rewrite zr_nil by auto. split; auto. unfold next_m. unfold finished at 2. cbn [s_m s_him].
    destruct (Z.ltb_spec (s_m s + 1) (s_him s)); [lia|]. cbn [negb]. unfold finished. cbn [s_m s_him]. destruct (Z.ltb_spec (s_m s + 1) (s_him s)); auto; lia.
Qed.

Definition sphere_list : list (Z * Z * Z) :=
  let him := zceil (k_rmax k * k_ar k) in flat_map (fun m => plane_rest (in_plane him m)) (zr (- him) him).

Lemma sphere_runs : Runs (sph_start k) sphere_list.
Proof.
  apply runs_next; try (cbn; lia). apply (cont_same (sph_start k)). repeat split.
  set (s := sph_start k). pose proof (sphere_cont _ s eq_refl) as C. change (flat_map _ _) with sphere_list in C.
  unfold ContM in C. cbv zeta in C. destruct (next_m_same s (at_n s (s_n s + 1)) eq_refl eq_refl) as [F P].
  destruct C as [[C1 C2]|[C1 C2]].
  - exists (next_m k (at_n s (s_n s + 1))). split. exists 1%nat. cbn [next_n]. destruct (Z.ltb_spec (s_n s + 1) (s_hin s)) as [H|H]; [cbn in H; lia|]. cbv zeta.
    change (mkSp _ _ _ _ _ _ _ _ _ _ _ _) with (at_n s (s_n s + 1)). rewrite <- F, C1. auto. left. rewrite <- F. auto.
  - apply (cont_same _ (next_m k (at_n s (s_n s + 1)))) in C2; auto. destruct C2 as (t & [f N1] & C2). exists t. split; auto.
    exists (S f). cbn [next_n]. destruct (Z.ltb_spec (s_n s + 1) (s_hin s)) as [H|H]; [cbn in H; lia|]. cbv zeta.
    change (mkSp _ _ _ _ _ _ _ _ _ _ _ _) with (at_n s (s_n s + 1)). rewrite <- F, C1. auto.
Qed.
End K.

(** * which points *)
Section In.
Variable k : sph_const.
Definition n0_of (m : Z) : R := (IZR m * k_dn0dm k)%R.
Definition rp2_of (m : Z) : R := (k_rmax2 k - (IZR m / k_ar k) * (IZR m / k_ar k))%R.
Definition o0_of (m n : Z) : R := (IZR m * k_do0dm k + (IZR n - n0_of m) * k_do0dn k)%R.
Definition rl2_of (m n : Z) : R := (rp2_of m - ((IZR n - n0_of m) / k_b2r k) * ((IZR n - n0_of m) / k_b2r k))%R.
Definition excl_of (m n : Z) : R := (sqrt_pos (k_rmin2 k + (rl2_of m n - k_rmax2 k)) * k_c1r k)%R.
Definition hole_of (m n : Z) : Z := zceil (o0_of m n - excl_of m n).
Definition in_hole (m n o : Z) : Prop :=
  excl_of m n <> 0%R /\ (Rabs (IZR (hole_of m n) - o0_of m n) < excl_of m n)%R /\ hole_of m n <= o < zceil (o0_of m n + excl_of m n).

Hypothesis c1r_pos : (0 < k_c1r k)%R.
Lemma sqrt_pos_nn x : (0 <= sqrt_pos x)%R.
Proof. unfold sqrt_pos. destruct (Rlt_dec 0 x). apply R_sqrt.sqrt_pos. lra. Qed.
Lemma line_in him m n o : In o (line_rest (set_line k (in_plane k him m) n)) <->
  (Rabs (IZR o - o0_of m n) < sqrt_pos (rl2_of m n) * k_c1r k)%R /\ ~ in_hole m n o.
Proof.
  unfold line_rest, set_line. cbn [s_hio s_outo s_o s_o0l s_excl in_plane s_n0 s_o0p s_rp2].
  fold (n0_of m). fold (rp2_of m). fold (rl2_of m n). fold (o0_of m n). fold (excl_of m n). fold (hole_of m n).
  set (h := (sqrt_pos (rl2_of m n) * k_c1r k)%R). set (o0 := o0_of m n). set (e := excl_of m n).
  assert (A : forall x, (zfloor (o0 - h) < x < zceil (o0 + h)) <-> (Rabs (IZR x - o0) < h)%R).
  { intros x. rewrite zfloor_lt, zceil_gt. split; intros H. apply Rabs_def1; lra. apply Rabs_def2 in H. lra. }
  unfold in_hole. fold o0 e.
  assert (HN : (0 <= h)%R) by (apply Rmult_le_pos; [apply sqrt_pos_nn|lra]).
  assert (EN : (0 <= e)%R) by (apply Rmult_le_pos; [apply sqrt_pos_nn|lra]).
  destruct (Req_EM_T e 0) as [Z|NZ].
  - rewrite Z.eqb_refl, zr_in, A. tauto.
  - destruct (Rlt_dec (Rabs (IZR (hole_of m n) - o0)) e) as [IN|OUT].
    + assert (HC : (o0 - e <= IZR (hole_of m n))%R) by (apply zceil_le; reflexivity || (unfold hole_of; lia)).
      assert (HU : hole_of m n < zceil (o0 + e)). { apply zceil_gt. apply Rabs_def2 in IN. lra. }
      destruct (Z.eqb_spec (hole_of m n) (zceil (o0 + h))) as [E|E].
      * rewrite zr_in. split.
        -- intros H. split. apply A. lia. lia.
        -- intros [H N]. apply A in H. lia.
      * rewrite in_app_iff, !zr_in. split.
        -- intros [H|H].
           ++ split; [|lia]. apply Rabs_def1.
              ** assert (IZR o < o0 - e)%R by (apply zceil_gt; unfold hole_of in H; fold o0 e in H; lia). lra.
              ** assert (o0 - h < IZR o)%R by (apply zfloor_lt; lia). lra.
           ++ split; [|lia]. apply Rabs_def1.
              ** assert (IZR o < o0 + h)%R by (apply zceil_gt; lia). lra.
              ** assert (o0 + e <= IZR o)%R by (apply zceil_le; lia). lra.
        -- intros [H N]. apply A in H. assert (~ (hole_of m n <= o < zceil (o0 + e))) by tauto. lia.
    + rewrite Z.eqb_refl, zr_in, A. tauto.
Qed.

Hypothesis ar_pos : (0 < k_ar k)%R.
Hypothesis b2r_pos : (0 < k_b2r k)%R.
Hypothesis rmax_sq : k_rmax2 k = if Rlt_dec (k_rmax k) 0 then (- (k_rmax k * k_rmax k))%R else (k_rmax k * k_rmax k)%R.

Definition r2_of (m n o : Z) : R :=
  ((IZR m / k_ar k) * (IZR m / k_ar k) + ((IZR n - n0_of m) / k_b2r k) * ((IZR n - n0_of m) / k_b2r k)
   + ((IZR o - o0_of m n) / k_c1r k) * ((IZR o - o0_of m n) / k_c1r k))%R.

(** |x| < sqrt_pos(y) c  iff  (x/c)^2 < y *)
Lemma span_iff x y c : (0 < c)%R -> ((Rabs x < sqrt_pos y * c)%R <-> ((x / c) * (x / c) < y)%R).
Proof.
  intros C. assert (E : x = (x / c * c)%R) by (field; lra). set (u := (x / c)%R) in *. rewrite E at 1. rewrite Rabs_mult, (Rabs_right c) by lra.
  transitivity (Rabs u < sqrt_pos y)%R. split; intros H. eapply Rmult_lt_reg_r; eauto. apply Rmult_lt_compat_r; auto.
  unfold sqrt_pos. destruct (Rlt_dec 0 y) as [P|P].
  - pose proof (sqrt_sqrt y ltac:(lra)). pose proof (R_sqrt.sqrt_lt_R0 y P). split; intros H1.
    + apply Rabs_def2 in H1. nra.
    + apply Rabs_def1; nra.
  - pose proof (Rabs_pos u). split; intros; nra.
Qed.

Lemma in_plane_iff m n : In n (zr (s_n (in_plane k 0 m)) (s_hin (in_plane k 0 m))) <->
  (((IZR n - n0_of m) / k_b2r k) * ((IZR n - n0_of m) / k_b2r k) < rp2_of m)%R.
Proof.
  rewrite zr_in. cbn [in_plane s_n s_hin]. fold (n0_of m). fold (rp2_of m). rewrite <- span_iff by auto. rewrite zfloor_lt, zceil_gt.
  split; intros H. apply Rabs_def1; lra. apply Rabs_def2 in H. lra.
Qed.

Lemma sphere_in m n o : In (m, n, o) (sphere_list k) <-> (r2_of m n o < k_rmax2 k)%R /\ ~ in_hole m n o.
Proof.
  unfold sphere_list. cbv zeta. rewrite in_flat_map.
  assert (SQ : forall x : R, (0 <= x * x)%R) by (intros; nra).
  split.
  - intros (m' & M & I). unfold plane_rest in I. apply in_flat_map in I. destruct I as (n' & N & I). apply in_map_iff in I. destruct I as (o' & E & I).
    cbn [in_plane s_m] in E. inversion E; subst. apply line_in in I. destruct I as [I H]. split; auto. apply span_iff in I; auto. unfold r2_of. unfold rl2_of, rp2_of in I. lra.
  - intros [R H]. exists m. unfold r2_of in R.
    pose proof (SQ (IZR m / k_ar k)%R). pose proof (SQ ((IZR n - n0_of m) / k_b2r k)%R). pose proof (SQ ((IZR o - o0_of m n) / k_c1r k)%R). split.
    + apply zr_in. rewrite rmax_sq in R. destruct (Rlt_dec (k_rmax k) 0) as [L|L]. nra.
      set (u := (IZR m / k_ar k)%R) in *. assert (E : IZR m = (u * k_ar k)%R) by (unfold u; field; lra).
      assert (- k_rmax k < u < k_rmax k)%R by nra.
      assert (m < zceil (k_rmax k * k_ar k)) by (apply zceil_gt; rewrite E; nra).
      assert (- m < zceil (k_rmax k * k_ar k)) by (apply zceil_gt; rewrite opp_IZR, E; nra). lia.
    + unfold plane_rest. apply in_flat_map. exists n. split.
      * apply (in_plane_iff m n). unfold rp2_of. lra.
      * apply in_map_iff. exists o. split; auto. apply line_in. split; auto. apply span_iff; auto. unfold rl2_of, rp2_of. lra.
Qed.

(** the points left out all lie inside rmin *)
Lemma in_hole_inside m n o : in_hole m n o -> (r2_of m n o < k_rmin2 k)%R.
Proof.
  intros (NZ & HI & L & U). assert (A : (o0_of m n - excl_of m n <= IZR (hole_of m n))%R) by (apply zceil_le; unfold hole_of; lia).
  assert (B : (IZR o < o0_of m n + excl_of m n)%R) by (apply zceil_gt; auto). apply IZR_le in L. apply Rabs_def2 in HI.
  assert (C : (Rabs (IZR o - o0_of m n) < excl_of m n)%R) by (apply Rabs_def1; lra).
  unfold excl_of in C. apply span_iff in C; auto. unfold r2_of. unfold rl2_of, rp2_of in C. lra.
Qed.
(** and the points inside rmin are left out, unless the first point of the
    excluded segment lies exactly at rmin *)
Lemma inside_hole m n o : (r2_of m n o < k_rmin2 k)%R -> in_hole m n o \/ r2_of m n (hole_of m n) = k_rmin2 k.
Proof.
  intros R. assert (C : (Rabs (IZR o - o0_of m n) < excl_of m n)%R). { apply span_iff; auto. unfold r2_of in R. unfold rl2_of, rp2_of. lra. }
  pose proof (Rabs_pos (IZR o - o0_of m n)). set (e := excl_of m n) in *. set (o0 := o0_of m n) in *. apply Rabs_def2 in C.
  assert (L : hole_of m n <= o) by (apply zceil_le; fold o0 e; lra). assert (U : o < zceil (o0 + e)) by (apply zceil_gt; lra).
  assert (A : (o0 - e <= IZR (hole_of m n))%R) by (apply zceil_le; unfold hole_of; fold o0 e; lia). pose proof (IZR_le _ _ L).
  destruct (Req_dec (IZR (hole_of m n)) (o0 - e)) as [E|E].
  - right. unfold r2_of. fold o0. rewrite E. replace (o0 - e - o0)%R with (- e)%R by ring.
    assert (EP : (0 < e)%R) by lra. clear - E EP c1r_pos. unfold e, excl_of, sqrt_pos in *.
    set (y := (k_rmin2 k + (rl2_of m n - k_rmax2 k))%R) in *. destruct (Rlt_dec 0 y) as [P|P]; [|exfalso; lra]. pose proof (sqrt_sqrt y ltac:(lra)).
    replace (- (sqrt y * k_c1r k) / k_c1r k)%R with (- sqrt y)%R by (field; lra).
    replace (- sqrt y * - sqrt y)%R with (sqrt y * sqrt y)%R by ring. rewrite H. unfold y, rl2_of, rp2_of. ring.
  - left. split; [|split]; auto. fold e. lra. fold o0 e. apply Rabs_def1; lra.
Qed.

Lemma nodup_app B : forall l1 l2 : list B, NoDup l1 -> NoDup l2 -> (forall b, In b l1 -> ~ In b l2) -> NoDup (l1 ++ l2).
Proof. induction l1 as [|x l1 IH1]; cbn; auto. intros l2 N1 N2 DJ. inversion N1; subst. constructor. rewrite in_app_iff. intros [X|X]; auto. apply (DJ x); auto. apply IH1; auto. Qed.
Lemma line_nodup him m n : NoDup (line_rest (set_line k (in_plane k him m) n)).
Proof.
  unfold line_rest, set_line. cbn [s_hio s_outo s_o s_o0l s_excl in_plane s_n0 s_o0p s_rp2].
  fold (n0_of m). fold (rp2_of m). fold (rl2_of m n). fold (o0_of m n). fold (excl_of m n). fold (hole_of m n).
  match goal with |- context[Z.eqb ?a ?b] => destruct (Z.eqb_spec a b) as [E|E] end. apply zr_nodup. apply nodup_app; try apply zr_nodup. intros b I1 I2. apply zr_in in I1, I2.
  destruct (Req_EM_T (excl_of m n) 0); [congruence|]. destruct (Rlt_dec (Rabs (IZR (hole_of m n) - o0_of m n)) (excl_of m n)) as [L|L]; [|congruence].
  assert (hole_of m n < zceil (o0_of m n + excl_of m n)) by (apply zceil_gt; apply Rabs_def2 in L; lra). lia.
Qed.

Lemma sphere_nodup : NoDup (sphere_list k).
Proof.
  assert (F : forall A B (f : A -> list B) l, NoDup l -> (forall a, In a l -> NoDup (f a)) -> (forall a a' b, In a l -> In a' l -> In b (f a) -> In b (f a') -> a = a') -> NoDup (flat_map f l)).
  { intros A B f l. induction l as [|a l IH]; intros N D U. constructor. cbn. inversion N; subst.
    apply nodup_app. apply D; left; auto. apply IH; auto. intros; apply D; right; auto. intros; eapply U; eauto; right; auto.
    intros b I1 I2. apply in_flat_map in I2. destruct I2 as (a' & I2 & I3). assert (a = a') by (eapply U; eauto; [left|right]; auto). subst. auto. }
  unfold sphere_list. cbv zeta. apply F. apply zr_nodup.
  - intros m _. unfold plane_rest. apply F. apply zr_nodup.
    + intros n _. apply Injective_map_NoDup. intros x y E. congruence.
      apply line_nodup.
    + intros n n' b _ _ I1 I2. apply in_map_iff in I1, I2. destruct I1 as (? & <- & _). destruct I2 as (? & E & _). cbn in E. congruence.
  - intros m m' b _ _ I1 I2. unfold plane_rest in *. apply in_flat_map in I1, I2. destruct I1 as (? & _ & I1). destruct I2 as (? & _ & I2).
    apply in_map_iff in I1, I2. destruct I1 as (? & <- & _). destruct I2 as (? & E & _). cbn in E. congruence.
Qed.
End In.

(** * geometry *)
Local Open Scope R_scope.
Lemma geo_id A B C ca cb cg s V x : x * s = 1 -> s * s = 1 - ca * ca -> V * V = 1 - ca * ca - cb * cb - cg * cg + 2 * ca * cb * cg ->
  (A * V * x) * (A * V * x)
  + ((B - A * (ca * cb - cg) * (x * x)) * s) * ((B - A * (ca * cb - cg) * (x * x)) * s)
  + (C - (A * (ca * cg - cb) * (x * x) - (B - A * (ca * cb - cg) * (x * x)) * ca)) * (C - (A * (ca * cg - cb) * (x * x) - (B - A * (ca * cb - cg) * (x * x)) * ca))
  = A * A + B * B + C * C + 2 * A * B * cg + 2 * A * C * cb + 2 * B * C * ca.
Proof. intros. nsatz. Qed.

Section Geo.
Variables a b c alpha beta gamma rmin rmax : R.
Hypothesis cell : proper_cell a b c alpha beta gamma.
Let l := lp_make a b c alpha beta gamma.
Let k := sph_init rmin rmax l.
Let ca := m_cosd alpha. Let cb := m_cosd beta. Let cg := m_cosd gamma.
Let sa := m_sind alpha. Let sb := m_sind beta. Let sg := m_sind gamma.
Let V := sqrt (1 + 2 * ca * cb * cg - ca * ca - cb * cb - cg * cg).

Lemma sin_pos w : 0 < w < 180 -> 0 < m_sind w.
Proof.
  intros H. unfold m_sind. pose proof PI_RGT_0 as P. clear - H P. assert (0 < PI * w) by (apply Rmult_lt_0_compat; lra). assert (0 < PI * (180 - w)) by (apply Rmult_lt_0_compat; lra).
  apply sin_gt_0; unfold rad; lra.
Qed.
Lemma cell_signs : 0 < a /\ 0 < b /\ 0 < c /\ 0 < sa /\ 0 < sb /\ 0 < sg /\ 0 < V /\ V * V = 1 - ca * ca - cb * cb - cg * cg + 2 * ca * cb * cg.
Proof.
  destruct cell as (A & B & C & Al & Be & Ga & G). repeat split; auto; try (apply sin_pos; auto).
  - apply sqrt_lt_R0. replace (1 + 2 * ca * cb * cg - ca * ca - cb * cb - cg * cg) with (gram ca cb cg) by (unfold gram; ring). exact G.
  - unfold V. rewrite sqrt_sqrt. ring. replace (1 + 2 * ca * cb * cg - ca * ca - cb * cb - cg * cg) with (gram ca cb cg) by (unfold gram; ring). apply Rlt_le. exact G.
Qed.

Lemma k_pos : 0 < k_ar k /\ 0 < k_b2r k /\ 0 < k_c1r k.
Proof.
  destruct cell_signs as (A & B & C & SA & SB & SG & VP & _). unfold k, sph_init, l, lp_make. cbn [k_ar k_b2r k_c1r lp_ar lp_b lp_sa lp_c].
  fold ca cb cg sa sb sg V. repeat split; apply Rdiv_lt_0_compat; try lra; apply Rmult_lt_0_compat; auto.
Qed.

Lemma r2_is_form m n o : r2_of k m n o =
  (IZR m * a) * (IZR m * a) + (IZR n * b) * (IZR n * b) + (IZR o * c) * (IZR o * c) + 2 * (IZR m * a) * (IZR n * b) * cg + 2 * (IZR m * a) * (IZR o * c) * cb + 2 * (IZR n * b) * (IZR o * c) * ca.
Proof.
  destruct cell_signs as (A & B & C & SA & SB & SG & VP & VV).
  rewrite <- (geo_id (IZR m * a) (IZR n * b) (IZR o * c) ca cb cg sa V (/ sa)); auto.
  - unfold r2_of, o0_of, n0_of, k, sph_init, l, lp_make. cbn [k_ar k_b2r k_c1r k_dn0dm k_do0dm k_do0dn lp_ar lp_br lp_cr lp_b lp_sa lp_c lp_ca lp_cgr lp_cbr].
    fold ca cb cg sa sb sg V. set (M := IZR m). set (N := IZR n). set (O := IZR o).
    replace (M / (sa / (a * V))) with (M * a * V * / sa) by (field; repeat split; lra).
    assert (E1 : M * ((ca * cb - cg) / (sa * sb) * (sb / (b * V)) / (sa / (a * V))) = M * a * (ca * cb - cg) * (/ sa * / sa) / b) by (field; repeat split; lra).
    assert (E2 : M * ((ca * cg - cb) / (sa * sg) * (sg / (c * V)) / (sa / (a * V))) = M * a * (ca * cg - cb) * (/ sa * / sa) / c) by (field; repeat split; lra).
    rewrite E1, E2.
    replace ((N - M * a * (ca * cb - cg) * (/ sa * / sa) / b) / (1 / (b * sa))) with ((N * b - M * a * (ca * cb - cg) * (/ sa * / sa)) * sa) by (field; repeat split; lra).
    replace ((O - (M * a * (ca * cg - cb) * (/ sa * / sa) / c + (N - M * a * (ca * cb - cg) * (/ sa * / sa) / b) * (- ca * (1 / (c * sa)) / (1 / (b * sa))))) / (1 / c))
      with (O * c - (M * a * (ca * cg - cb) * (/ sa * / sa) - (N * b - M * a * (ca * cb - cg) * (/ sa * / sa)) * ca)) by (field; repeat split; lra).
    reflexivity.
  - field. lra.
  - unfold sa, ca, m_sind, m_cosd. pose proof (sin2_cos2 (rad * alpha)). unfold Rsqr in H. lra.
Qed.

Lemma r2_nonneg m n o : 0 <= r2_of k m n o.
Proof. unfold r2_of. assert (H : forall x y z, 0 <= x * x + y * y + z * z) by (clear; intros; nra). apply H. Qed.

Lemma node_dist_form m n o : node_dist a b c alpha beta gamma m n o = sqrt (r2_of k m n o) /\ lp_r l m n o = sqrt (r2_of k m n o).
Proof.
  rewrite r2_is_form. split.
  - unfold node_dist, dot33, metric, vec3, cell_cos. cbn [Nat.eqb Nat.add]. f_equal. unfold ca, cb, cg, m_cosd, rad. ring.
  - unfold lp_r, l, lp_make. cbn [lp_a lp_b lp_c lp_ca lp_cb lp_cg]. fold ca cb cg. f_equal. ring.
Qed.

Lemma sq_lt x y : 0 <= x -> (x < (if Rlt_dec y 0 then - (y * y) else y * y) <-> sqrt x < y).
Proof.
  intros X. pose proof (sqrt_sqrt x X). pose proof (R_sqrt.sqrt_pos x). destruct (Rlt_dec y 0); split; intros; nra.
Qed.
Lemma sq_eq x y : 0 <= x -> x = (if Rlt_dec y 0 then - (y * y) else y * y) -> sqrt x = y.
Proof. intros X E. pose proof (sqrt_sqrt x X). pose proof (R_sqrt.sqrt_pos x). destruct (Rlt_dec y 0); nra. Qed.

Lemma sphere_points : exists f0 L, (forall f, (f0 <= f)%nat -> points_in_sphere f rmin rmax l = Ok L) /\ NoDup L /\
  (forall m n o, In (m, n, o) L -> node_dist a b c alpha beta gamma m n o < rmax) /\
  (forall m n o, rmin <= node_dist a b c alpha beta gamma m n o < rmax -> In (m, n, o) L) /\
  (forall m n o, In (m, n, o) L -> node_dist a b c alpha beta gamma m n o < rmin ->
     exists o', node_dist a b c alpha beta gamma m n o' = rmin).
Proof.
  destruct k_pos as (KA & KB & KC). destruct (sphere_runs k) as [f0 R]. exists f0, (sphere_list k).
  assert (I := sphere_in k KC KA KB eq_refl).
  split; [|split; [|split; [|split]]].
  - intros f F. unfold points_in_sphere. cbv zeta. fold k. apply (visit_mono k f0); auto.
  - apply sphere_nodup.
  - intros m n o P. apply I in P. destruct P as [P _]. destruct (node_dist_form m n o) as [-> _]. apply sq_lt; auto. apply r2_nonneg.
  - intros m n o [P Q]. destruct (node_dist_form m n o) as [E _]. rewrite E in *. apply I. split.
    + apply sq_lt in Q; auto. apply r2_nonneg.
    + intros H. apply in_hole_inside in H; auto. apply sq_lt in H; [|apply r2_nonneg]. lra.
  - intros m n o P Q. apply I in P. destruct P as [_ P]. destruct (node_dist_form m n o) as [E _]. rewrite E in Q. apply sq_lt in Q; [|apply r2_nonneg].
    apply (inside_hole k KC) in Q. destruct Q as [Q|Q]; [contradiction|]. exists (hole_of k m n). destruct (node_dist_form m n (hole_of k m n)) as [-> _]. apply sq_eq; auto. apply r2_nonneg.
Qed.
End Geo.

(** when rmin is a multiple of the edge c nothing is excluded on the line
    through the origin, so the origin is visited *)
Lemma origin_visited a b c alpha beta gamma rmax (j : Z) : proper_cell a b c alpha beta gamma -> (0 < j)%Z -> IZR j * c < rmax ->
  exists f L, points_in_sphere f (IZR j * c) rmax (lp_make a b c alpha beta gamma) = Ok L /\ In (0, 0, 0)%Z L.
Proof.
  intros P J M. pose proof P as (_ & _ & C & _). apply IZR_lt in J. assert (RM : 0 < IZR j * c) by (apply Rmult_lt_0_compat; auto).
  set (l := lp_make a b c alpha beta gamma). set (k := sph_init (IZR j * c) rmax l).
  destruct (k_pos a b c alpha beta gamma (IZR j * c) rmax P) as (KA & KB & KC). fold l in KA, KB, KC. fold k in KA, KB, KC.
  destruct (sphere_runs k) as [f R]. exists f, (sphere_list k). split. exact R.
  apply (sphere_in k KC KA KB eq_refl).
  assert (N0 : n0_of k 0 = 0) by (unfold n0_of; ring). assert (O0 : o0_of k 0 0 = 0) by (unfold o0_of; rewrite N0; ring).
  assert (RL : rl2_of k 0 0 = k_rmax2 k). { unfold rl2_of, rp2_of. rewrite N0. field. lra. }
  assert (RX : k_rmax2 k = rmax * rmax). { unfold k, sph_init. cbn [k_rmax2]. destruct (Rlt_dec rmax 0); lra. }
  assert (RN : k_rmin2 k = (IZR j * c) * (IZR j * c)). { unfold k, sph_init. cbn [k_rmin2]. destruct (Rlt_dec (IZR j * c) 0); lra. }
  assert (EX : excl_of k 0 0 = IZR j).
  { unfold excl_of, sqrt_pos. rewrite RL. replace (k_rmin2 k + (k_rmax2 k - k_rmax2 k)) with (k_rmin2 k) by ring. rewrite RN. destruct (Rlt_dec _ _) as [Q|Q]; [|nra].
    rewrite sqrt_square by lra. unfold k, sph_init. cbn [k_c1r]. change (lp_c l) with c. field. lra. }
  split.
  - unfold r2_of. rewrite N0, O0, RX. replace (IZR 0 / k_ar k * (IZR 0 / k_ar k) + (IZR 0 - 0) / k_b2r k * ((IZR 0 - 0) / k_b2r k) + (IZR 0 - 0) / k_c1r k * ((IZR 0 - 0) / k_c1r k)) with 0 by (field; lra). nra.
  - intros (_ & H & _). rewrite EX, O0 in H. unfold hole_of in H. rewrite EX, O0 in H.
    assert (E : zceil (0 - IZR j) = (- j)%Z).
    { apply Z.le_antisymm. apply zceil_le. rewrite opp_IZR. lra. apply Z.lt_pred_le. apply zceil_gt. unfold Z.pred. rewrite plus_IZR, opp_IZR. lra. }
    rewrite E, opp_IZR in H. apply Rabs_def2 in H. lra.
Qed.

Lemma cubic_proper x : 0 < x -> proper_cell x x x 90 90 90.
Proof.
  intros X. repeat split; try lra. unfold gram. replace (PI / 180 * 90) with (PI / 2) by field. rewrite cos_PI2. lra.
Qed.
Lemma cell60_proper x : 0 < x -> proper_cell x x x 90 90 60.
Proof.
  intros X. repeat split; try lra. unfold gram. replace (PI / 180 * 90) with (PI / 2) by field. replace (PI / 180 * 60) with (PI / 3) by field. rewrite cos_PI2, cos_PI3. lra.
Qed.

Lemma inner_radius a b c alpha beta gamma rmin rmax fuel L : proper_cell a b c alpha beta gamma ->
  points_in_sphere fuel rmin rmax (lp_make a b c alpha beta gamma) = Ok L ->
  (forall m n o, node_dist a b c alpha beta gamma m n o <> rmin) ->
  forall m n o, In (m, n, o) L -> rmin < node_dist a b c alpha beta gamma m n o.
Proof.
  intros P H F m n o I. destruct (sphere_points a b c alpha beta gamma rmin rmax P) as (f & L' & H1 & H2 & H3 & H4 & H5).
  assert (E : L' = L). { assert (Ok L' = Ok L). rewrite <- (H1 (f + fuel)%nat) by lia. unfold points_in_sphere in *. cbv zeta in *. apply (visit_mono _ fuel); auto. lia. congruence. }
  subst. destruct (Rtotal_order rmin (node_dist a b c alpha beta gamma m n o)) as [Q|[Q|Q]]; auto.
  - exfalso. apply (F m n o). auto.
  - exfalso. destruct (H5 m n o I Q) as [o' E]. apply (F m n o'). auto.
Qed.

Lemma node_origin a b c alpha beta gamma : node_dist a b c alpha beta gamma 0 0 0 = 0.
Proof. unfold node_dist, dot33, vec3. replace (_ + _) with 0 by ring. apply sqrt_0. Qed.

Lemma inner_radius_fails : exists a b c alpha beta gamma rmin rmax fuel L,
    proper_cell a b c alpha beta gamma /\ points_in_sphere fuel rmin rmax (lp_make a b c alpha beta gamma) = Ok L /\
    exists m n o, In (m, n, o) L /\ node_dist a b c alpha beta gamma m n o < rmin.
Proof.
  destruct (origin_visited 1 1 1 90 90 90 2 1 (cubic_proper 1 ltac:(lra)) ltac:(lia) ltac:(lra)) as (f & L & H & I).
  exists 1, 1, 1, 90, 90, 90, (1 * 1), 2, f, L. split. apply cubic_proper; lra. split. exact H. exists 0%Z, 0%Z, 0%Z. split; auto. rewrite node_origin. lra.
Qed.

Lemma form60 m n o : node_dist 4 4 4 90 90 60 m n o = sqrt (IZR (16 * (m * m + n * n + o * o + m * n))).
Proof.
  unfold node_dist, dot33, metric, vec3, cell_cos. cbn [Nat.eqb Nat.add]. f_equal.
  replace (PI / 180 * 90) with (PI / 2) by field. replace (PI / 180 * 60) with (PI / 3) by field. rewrite cos_PI2, cos_PI3.
  rewrite !mult_IZR, !plus_IZR, !mult_IZR. lra.
Qed.
Lemma case60 : proper_cell 4 4 4 90 90 60 /\ (forall m n o, node_dist 4 4 4 90 90 60 m n o <> 1).
Proof.
  split. apply cell60_proper; lra. intros m n o. rewrite form60. intros E.
  set (q := (m * m + n * n + o * o + m * n)%Z) in *. destruct (Z_le_gt_dec q 0) as [Q|Q].
  - rewrite sqrt_neg_0 in E. lra. apply IZR_le. lia.
  - assert (1 * 1 = IZR (16 * q)). { rewrite <- E at 1 2. apply sqrt_sqrt. apply IZR_le. lia. } assert (IZR 1 < IZR (16 * q)) by (apply IZR_lt; lia). lra.
Qed.
