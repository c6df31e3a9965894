(** Lemmas for the phase fractions. *)
From Coq Require Import Ascii String List Arith ZArith Reals Bool Lia Lra.
From Verif Require Import Base ParserModel RSum ParserDeriv PdfModel DataModel ElementTable ScatModel ScatSpec.
Import ListNotations.
Local Open Scope R_scope.

Definition wt (k : norm_by) (o : option fphase) : R := part k 1 o.
Lemma part_wt k s o : part k s o = s * wt k o.
Proof. unfold wt. destruct o; simpl; ring. Qed.
Lemma fold_sum (f : R * R * R -> R) l : forall s, fold_left (fun s a => s + f a) l s = s + fold_right (fun a s => f a + s) 0 l.
Proof. induction l as [|a l IH]; intros s; simpl. ring. rewrite IH. ring. Qed.
Lemma amount_ok k s p : scatters p -> amount k s p = Some (s * per_scale k p).
Proof.
  intros [N B]. unfold amount, avg_mass, avg_sf, per_scale, atom_sum in *. rewrite !fold_sum, !Rplus_0_l.
  set (b := fold_right _ 0 (fp_atoms p)) in *. set (m := fold_right _ 0 (fp_atoms p)).
  assert (b / fp_np p <> 0) as Q. { unfold Rdiv. apply Rmult_integral_contrapositive_currified; auto. apply Rinv_neq_0_compat; auto. }
  assert (b / fp_np p * (b / fp_np p) <> 0) as Q2 by (apply Rmult_integral_contrapositive_currified; auto).
  assert (b / fp_np p * (b / fp_np p) * fp_np p <> 0) as Q3 by (apply Rmult_integral_contrapositive_currified; auto).
  unfold ndiv. destruct (Req_EM_T (fp_np p) 0); [contradiction|]. cbn [nmul].
  destruct k; cbn [nmul].
  - destruct (Req_EM_T _ 0); [contradiction|]. f_equal. field. auto.
  - destruct (Req_EM_T _ 0); [contradiction|]. f_equal. field. auto.
  - destruct (Req_EM_T _ 0); [contradiction|]. f_equal. field. auto.
Qed.
Lemma amounts_ok k (g : fphase -> R) (h : option fphase -> R) sel : (forall o, h o = match o with None => 0 | Some p => g p end) -> all_scatter sel ->
  map (amount_opt k g) sel = map (fun o => Some (part k (h o) o)) sel.
Proof.
  intros H A. induction A as [|o sel Ho A IH]; simpl; auto. rewrite IH. f_equal. destruct o as [p|]; simpl; auto.
  rewrite amount_ok by auto. f_equal. f_equal. rewrite H. auto.
Qed.
Lemma nsum_acc {A} (f : A -> R) l : forall s, fold_left nadd (map (fun o => Some (f o)) l) (Some s) = Some (s + lsum f l).
Proof. induction l as [|a l IH]; intros s; simpl. f_equal; ring. rewrite IH. f_equal. ring. Qed.
Lemma nsum_ok {A} (f : A -> R) l : nsum (map (fun o => Some (f o)) l) = Some (lsum f l).
Proof. unfold nsum. rewrite nsum_acc. f_equal. ring. Qed.
Lemma total_sel k (g : option fphase -> R) sel : total k sel (map g sel) = lsum (fun o => part k (g o) o) sel.
Proof. unfold total. induction sel as [|o sel IH]; simpl; auto. rewrite IH. auto. Qed.
Lemma combine_maps {A B C} (f : A -> B) (g : A -> C) l : combine (map f l) (map g l) = map (fun a => (f a, g a)) l.
Proof. induction l; simpl; congruence. Qed.

Definition dsq (k : norm_by) (sel : list (option fphase)) : R := lsum (fun o => part k (dscale_of o) o * part k (dscale_of o) o) sel.
Definition var_of (k : norm_by) (sel : list (option fphase)) (X : R) (o : option fphase) : R :=
  let x := part k (scale_of o) o in let dx := part k (dscale_of o) o in
  (dx * dx * (X * X - 2 * X * x) + x * x * dsq k sel) / X ^ 4.
Lemma fractions_eq k sel : all_scatter sel -> let X := total k sel (map scale_of sel) in
  fractions k sel = if Rlt_dec 0 X then map (fun o => (Some (part k (scale_of o) o / X), nsqrt (var_of k sel X o))) sel else map (fun _ => (Some 0, Some 0)) sel.
Proof.
  intros A X. unfold fractions. rewrite (amounts_ok k fp_pscale scale_of), (amounts_ok k fp_dpscale dscale_of) by (auto; intros [p|]; auto).
  rewrite nsum_ok, map_map. cbn [nmul]. rewrite nsum_ok. fold (dsq k sel). unfold X. rewrite total_sel. set (Y := lsum _ sel).
  destruct (Rlt_dec 0 Y) as [P|]; auto. rewrite combine_maps, map_map. apply map_ext. intros o.
  unfold ndiv. cbn [nmul nsub nadd]. destruct (Req_EM_T Y 0); [lra|]. destruct (Req_EM_T (Y ^ 4) 0) as [Z|Z].
  - exfalso. apply (pow_nonzero Y 4) in n. contradiction.
  - reflexivity.
Qed.

(** derivatives *)
Lemma total_set k sel : forall s j x, length s = length sel -> (j < length s)%nat ->
  total k sel (set_at s j x) = total k sel s + (x - nth j s 0) * wt k (nth j sel None).
Proof.
  unfold total, set_at. induction sel as [|o sel IH]; intros [|a s] j x L J; simpl in *; try lia.
  destruct j as [|j]; simpl.
  - rewrite !(part_wt k). ring.
  - rewrite IH by lia. ring.
Qed.
Lemma nth_set s : forall j x i, (j < length s)%nat -> nth i (set_at s j x) 0 = if (i =? j)%nat then x else nth i s 0.
Proof.
  unfold set_at. induction s as [|a s IH]; intros j x i J; simpl in *. lia.
  destruct j as [|j], i as [|i]; simpl; auto. apply IH. lia.
Qed.
Definition part_d (k : norm_by) (sel : list (option fphase)) (s : list R) (i j : nat) : R :=
  ((if (i =? j)%nat then wt k (nth i sel None) else 0) * total k sel s - nth i s 0 * wt k (nth i sel None) * wt k (nth j sel None)) / (total k sel s * total k sel s).
Lemma dlim_quot a b c X x0 : X <> 0 -> derivable_pt_lim (fun x => (a * (x - x0) + b) / (X + (x - x0) * c)) x0 ((a * X - b * c) / (X * X)).
Proof.
  intros NX.
  assert (forall u v, derivable_pt_lim (fun x => u * (x - x0) + v) x0 u) as Lin.
  { intros u v. assert (derivable_pt_lim (fun x => u * x + (v - u * x0)) x0 (u * 1 + 0)) as Q.
    { apply (derivable_pt_lim_plus (fun x => u * x) (fun _ => v - u * x0)). apply (derivable_pt_lim_scal id u). apply derivable_pt_lim_id. apply derivable_pt_lim_const. }
    replace (u * 1 + 0) with u in Q by ring. eapply dlim_ext; [|exact Q]. intros y. cbv beta. ring. }
  pose (f := fun x : R => a * (x - x0) + b). pose (g := fun x : R => X + (x - x0) * c).
  assert (derivable_pt_lim (f / g)%F x0 ((a * g x0 - c * f x0) / Rsqr (g x0))) as Q.
  { apply derivable_pt_lim_div. apply Lin. eapply dlim_ext; [|apply (Lin c X)]. intros y. unfold g. ring. unfold g. replace (X + (x0 - x0) * c) with X by ring. auto. }
  replace ((a * X - b * c) / (X * X)) with ((a * g x0 - c * f x0) / Rsqr (g x0)). exact Q.
  unfold g, f, Rsqr. replace (x0 - x0) with 0 by ring. rewrite !Rmult_0_l, !Rmult_0_r, Rplus_0_r, Rplus_0_l. f_equal. ring.
Qed.
Lemma gradient_ok k sel i s : length s = length sel -> (i < length sel)%nat -> total k sel s <> 0 ->
  gradient k sel i s (map (part_d k sel s i) (seq 0 (length sel))).
Proof.
  intros L I NX. split. rewrite map_length, seq_length; auto. intros j J.
  assert (nth j (map (part_d k sel s i) (seq 0 (length sel))) 0 = part_d k sel s i j) as ->.
  { rewrite (nth_indep _ 0 (part_d k sel s i 0)) by (rewrite map_length, seq_length; auto).
    pose proof (map_nth (part_d k sel s i) (seq 0 (length sel)) 0%nat j) as M. rewrite M, seq_nth by auto. auto. }
  unfold part_d. set (X := total k sel s) in *. set (wi := wt k (nth i sel None)). set (wj := wt k (nth j sel None)).
  eapply dlim_ext; [|apply (dlim_quot (if (i =? j)%nat then wi else 0) (nth i s 0 * wi) wj X (nth j s 0) NX)].
  intros y. cbv beta. unfold fraction_of. rewrite total_set by lia. rewrite nth_set by lia. fold X wj. rewrite part_wt. fold wi.
  f_equal. destruct (Nat.eqb_spec i j) as [->|]; ring.
Qed.
Lemma lsum_map {A B} (g : A -> B) (f : B -> R) l : lsum f (map g l) = lsum (fun a => f (g a)) l.
Proof. induction l; simpl; congruence. Qed.
Lemma combine_seq (d : nat -> R) : forall (sel : list (option fphase)) n, combine (map d (seq n (length sel))) (map dscale_of sel) =
  map (fun j => (d j, dscale_of (nth (j - n) sel None))) (seq n (length sel)).
Proof.
  induction sel as [|o sel IH]; intros n; simpl; auto. rewrite Nat.sub_diag, IH. f_equal. apply map_ext_in. intros j Hj. apply in_seq in Hj.
  replace (j - n)%nat with (S (j - S n)) by lia. auto.
Qed.
Lemma dsq_seq k sel : dsq k sel = lsum (fun j => part k (dscale_of (nth j sel None)) (nth j sel None) * part k (dscale_of (nth j sel None)) (nth j sel None)) (seq 0 (length sel)).
Proof.
  unfold dsq. induction sel as [|o sel IH]; simpl; auto. rewrite IH, <- seq_shift, lsum_map. auto.
Qed.
Lemma lsum_pick (c : R) i : forall m n, (n <= i < n + m)%nat -> lsum (fun j => if (i =? j)%nat then c else 0) (seq n m) = c.
Proof.
  induction m as [|m IH]; intros n H; simpl. lia. destruct (Nat.eqb_spec i n) as [->|].
  - assert (lsum (fun j => if (n =? j)%nat then c else 0) (seq (S n) m) = 0) as ->; [|ring].
    clear IH H. assert (forall p q, (n < q)%nat -> lsum (fun j => if (n =? j)%nat then c else 0) (seq q p) = 0) as G; [|apply G; lia].
    induction p as [|p IHp]; intros q Hq; simpl; auto. destruct (Nat.eqb_spec n q); [lia|]. rewrite IHp by lia. ring.
  - rewrite IH by lia. ring.
Qed.
Lemma variance_ok k sel i : (i < length sel)%nat -> total k sel (map scale_of sel) <> 0 ->
  lsum (fun x => (fst x * snd x) * (fst x * snd x)) (combine (map (part_d k sel (map scale_of sel) i) (seq 0 (length sel))) (map dscale_of sel)) =
  var_of k sel (total k sel (map scale_of sel)) (nth i sel None).
Proof.
  intros I NX. set (s := map scale_of sel) in *. set (X := total k sel s) in *. rewrite combine_seq, lsum_map. cbn [fst snd].
  unfold var_of. cbv zeta. rewrite dsq_seq. set (o := nth i sel None).
  assert (nth i s 0 = scale_of o) as Si. { unfold s, o. rewrite (nth_indep _ 0 (scale_of None)) by (rewrite map_length; auto). apply map_nth. }
  set (x := part k (scale_of o) o). set (dx := part k (dscale_of o) o).
  transitivity (lsum (fun j => (if (i =? j)%nat then dx * dx * (X * X - 2 * X * x) / X ^ 4 else 0) + (x * x / X ^ 4) *
     (part k (dscale_of (nth j sel None)) (nth j sel None) * part k (dscale_of (nth j sel None)) (nth j sel None))) (seq 0 (length sel))).
  - apply lsum_ext. intros j Hj. rewrite Nat.sub_0_r. unfold part_d. fold X o. rewrite Si. unfold x, dx. rewrite !part_wt.
    destruct (Nat.eqb_spec i j) as [<-|Ne]; fold o; field; auto.
  - rewrite lsum_plus, lsum_scal. rewrite lsum_pick by lia. field. auto.
Qed.
Lemma frac_values k sel i : all_scatter sel -> 0 < total k sel (map scale_of sel) -> (i < length sel)%nat ->
  exists d, gradient k sel i (map scale_of sel) d /\
    nth i (fractions k sel) (None, None) = (Some (fraction_of k sel i (map scale_of sel)), Some (propagated d (map dscale_of sel))).
Proof.
  intros A P I. exists (map (part_d k sel (map scale_of sel) i) (seq 0 (length sel))). split.
  - apply gradient_ok; auto. apply map_length. lra.
  - rewrite fractions_eq by auto. destruct (Rlt_dec 0 _) as [P'|]; [|tauto]. set (X := total k sel (map scale_of sel)) in *.
    pose (F := fun o => (Some (part k (scale_of o) o / X) : num, nsqrt (var_of k sel X o))).
    pose proof (map_nth F sel None i) as M. change (nth i (map F sel) (None, None) = (Some (fraction_of k sel i (map scale_of sel)), Some (propagated (map (part_d k sel (map scale_of sel) i) (seq 0 (length sel))) (map dscale_of sel)))).
    rewrite (nth_indep _ _ (F None)) by (rewrite map_length; auto). rewrite M. unfold F.
    assert (nth i (map scale_of sel) 0 = scale_of (nth i sel None)) as Si. { rewrite (nth_indep _ 0 (scale_of None)) by (rewrite map_length; auto). apply map_nth. }
    unfold fraction_of. rewrite Si. fold X. f_equal. unfold propagated. rewrite variance_ok by (auto; fold X; lra). fold X.
    unfold nsqrt. destruct (Rlt_dec _ 0) as [Neg|]; auto. exfalso. unfold X in Neg. rewrite <- variance_ok in Neg by (auto; fold X; lra).
    assert (0 <= lsum (fun x : R * R => (fst x * snd x) * (fst x * snd x)) (combine (map (part_d k sel (map scale_of sel) i) (seq 0 (length sel))) (map dscale_of sel))); [|lra].
    apply lsum_nonneg. intros a _. apply Rle_0_sqr.
Qed.
Lemma frac_zero k sel : all_scatter sel -> total k sel (map scale_of sel) <= 0 -> fractions k sel = map (fun _ => (Some 0, Some 0)) sel.
Proof. intros A P. rewrite fractions_eq by auto. destruct (Rlt_dec 0 _); auto. lra. Qed.
Lemma frac_len k sel : all_scatter sel -> length (fractions k sel) = length sel.
Proof. intros A. rewrite fractions_eq by auto. destruct (Rlt_dec 0 _); apply map_length. Qed.

(** sound phases *)
Lemma atoms_nonneg f (l : list (R * R * R)) : Forall (fun a => 0 <= f a) l -> 0 <= fold_right (fun a s => f a + s) 0 l.
Proof. induction 1; simpl; lra. Qed.
Lemma mass_pos p : sound_phase p -> 0 < atom_sum (fun a => fst (fst a) * snd a) p.
Proof.
  intros (_ & _ & A & _ & B). unfold atom_sum in *. induction (fp_atoms p) as [|a l IH]; simpl in *. lra.
  inversion A as [|? ? [O M] Al]; subst. destruct (Req_EM_T (fst (fst a)) 0) as [Z|Z].
  - rewrite Z in *. rewrite Rmult_0_l, Rplus_0_l in *. apply IH; auto.
  - assert (0 < fst (fst a) * snd a) by (apply Rmult_lt_0_compat; lra).
    assert (0 <= fold_right (fun a s => fst (fst a) * snd a + s) 0 l); [|lra].
    apply atoms_nonneg. eapply Forall_impl; [|exact Al]. intros c [Oc Mc]. apply Rmult_le_pos; lra.
Qed.
Lemma per_scale_pos k p : sound_phase p -> 0 < per_scale k p.
Proof.
  intros S. pose proof (mass_pos p S) as M. destruct S as (_ & N & A & _ & B). unfold per_scale. cbv zeta.
  set (b := atom_sum (fun a => fst (fst a) * snd (fst a)) p) in *. set (m := atom_sum (fun a => fst (fst a) * snd a) p) in *.
  assert (b / fp_np p <> 0) as Q. { unfold Rdiv. apply Rmult_integral_contrapositive_currified; auto. apply Rinv_neq_0_compat; lra. }
  assert (0 < b / fp_np p * (b / fp_np p)) as Q2 by (apply Rsqr_pos_lt; auto).
  destruct k; unfold Rdiv at 1.
  - rewrite Rmult_1_l. apply Rinv_0_lt_compat; auto.
  - rewrite Rmult_1_l. apply Rinv_0_lt_compat. apply Rmult_lt_0_compat; auto.
  - apply Rmult_lt_0_compat. apply Rdiv_lt_0_compat; auto. apply Rinv_0_lt_compat; auto.
Qed.
Lemma sound_scatter sel : sound_selection sel -> all_scatter sel.
Proof. apply Forall_impl. intros [p|]; auto. unfold sound_phase. tauto. Qed.
Lemma sound_parts k sel : sound_selection sel -> Forall (fun o => 0 <= part k (scale_of o) o) sel.
Proof.
  apply Forall_impl. intros [p|]; simpl; [|lra]. intros S. pose proof (per_scale_pos k p S). destruct S as (S & _). apply Rmult_le_pos; lra.
Qed.
Lemma le_lsum {A} (f : A -> R) l a : Forall (fun a => 0 <= f a) l -> In a l -> f a <= lsum f l.
Proof.
  induction 1 as [|b l Hb H IH]; simpl; [tauto|]. assert (0 <= lsum f l). { apply lsum_nonneg. rewrite Forall_forall in H. auto. }
  intros [->|I]. lra. specialize (IH I). lra.
Qed.
Lemma sound_total k sel : sound_selection sel -> one_used sel -> 0 < total k sel (map scale_of sel).
Proof.
  intros S (p & I & P). rewrite total_sel. pose proof (le_lsum (fun o => part k (scale_of o) o) sel (Some p) (sound_parts k sel S) I) as L. simpl in L.
  assert (sound_phase p) as Sp. { unfold sound_selection in S. rewrite Forall_forall in S. apply (S _ I). }
  pose proof (per_scale_pos k p Sp). assert (0 < fp_pscale p * per_scale k p) by (apply Rmult_lt_0_compat; auto). lra.
Qed.
Lemma frac_sound k sel : sound_selection sel -> one_used sel ->
  (exists f, map fst (fractions k sel) = map Some f /\ length f = length sel /\ Forall (fun x => 0 <= x <= 1) f /\ lsum (fun x => x) f = 1 /\
     forall i, (i < length sel)%nat -> nth i sel None = None -> nth i f 1 = 0).
Proof.
  intros S U. pose proof (sound_total k sel S U) as T. exists (map (fun o => part k (scale_of o) o / total k sel (map scale_of sel)) sel).
  rewrite fractions_eq by (apply sound_scatter; auto). destruct (Rlt_dec 0 _); [|tauto]. rewrite !map_map. split; auto. split. apply map_length.
  pose proof (sound_parts k sel S) as Pp. split; [|split].
  - apply Forall_forall. intros x Hx. apply in_map_iff in Hx as (o & <- & I). rewrite total_sel in *.
    pose proof (le_lsum _ sel o Pp I) as L. rewrite Forall_forall in Pp. specialize (Pp o I). cbv beta in *. split.
    + apply Rmult_le_pos; auto. left. apply Rinv_0_lt_compat; auto.
    + apply (Rmult_le_reg_r (lsum (fun o => part k (scale_of o) o) sel)); auto. unfold Rdiv. rewrite Rmult_assoc, Rinv_l, Rmult_1_l, Rmult_1_r by lra. auto.
  - rewrite lsum_map. rewrite (lsum_ext _ (fun o => / total k sel (map scale_of sel) * part k (scale_of o) o)) by (intros; unfold Rdiv; ring).
    rewrite lsum_scal. rewrite <- total_sel. apply Rinv_l. lra.
  - intros i I E. pose (F := fun o => part k (scale_of o) o / total k sel (map scale_of sel)).
    rewrite (nth_indep _ 1 (F None)) by (rewrite map_length; auto). pose proof (map_nth F sel None i) as M. fold F. rewrite M, E. unfold F. simpl. unfold Rdiv. ring.
Qed.
