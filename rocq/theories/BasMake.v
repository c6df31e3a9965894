(** Proofs: every structure can be written in every basis. *)
From Coq Require Import List Arith ZArith Reals Bool Lia Lra Psatz.
From Verif Require Import Base RSum MathModel MetricModel MetricSpec MetricProof SphereModel SphereSpec SphereProof PdfModel PdfSpec RelSpec RelProof SupSpec SupProof AxSpec AxProof BasSpec BasProof.
Import ListNotations.
Local Open Scope R_scope.

Definition proper (p : cphase) : Prop := proper_cell (cp_a0 p 0%nat) (cp_a0 p 1%nat) (cp_a0 p 2%nat) (cp_win p 0%nat) (cp_win p 1%nat) (cp_win p 2%nat).
Lemma cos_lt w : 0 < w < 180 -> 0 < 1 - cos (PI / 180 * w) * cos (PI / 180 * w).
Proof.
  intros H. pose proof PI_RGT_0. assert (S : 0 < sin (PI / 180 * w)). { apply sin_gt_0. apply Rmult_lt_0_compat; lra. replace PI with (PI / 180 * 180) at 2 by field. apply Rmult_lt_compat_l; lra. }
  pose proof (sin2_cos2 (PI / 180 * w)) as Q. unfold Rsqr in Q. nra.
Qed.
Lemma metric_sym a0 win i j : metric a0 win i j = metric a0 win j i.
Proof. unfold metric, cell_cos. rewrite (Nat.add_comm i j), (Nat.eqb_sym i j). destruct (Nat.eqb_spec j i) as [->|]; ring. Qed.
Lemma quad_pos x y w ca cb cg : 0 < 1 - cg * cg -> 0 < gram ca cb cg -> x <> 0 \/ y <> 0 \/ w <> 0 ->
  0 < x * x + y * y + w * w + 2 * (x * y * cg) + 2 * (x * w * cb) + 2 * (y * w * ca).
Proof.
  intros S G N. set (s := 1 - cg * cg) in *. set (k := ca - cg * cb). set (q := x + y * cg + w * cb).
  assert (E : s * (x * x + y * y + w * w + 2 * (x * y * cg) + 2 * (x * w * cb) + 2 * (y * w * ca)) = s * (q * q) + (s * y + w * k) * (s * y + w * k) + w * w * gram ca cb cg) by (unfold s, q, k, gram; ring).
  assert (A1 : 0 <= q * q) by apply Rle_0_sqr. assert (A2 : 0 <= (s * y + w * k) * (s * y + w * k)) by apply Rle_0_sqr. assert (A3 : 0 <= w * w) by apply Rle_0_sqr.
  assert (B1 : 0 <= s * (q * q)) by (apply Rmult_le_pos; lra). assert (B3 : 0 <= w * w * gram ca cb cg) by (apply Rmult_le_pos; lra).
  apply (Rmult_lt_reg_l s); auto. rewrite Rmult_0_r, E.
  destruct (Req_dec w 0) as [W|W].
  - subst w. destruct (Req_dec y 0) as [Y|Y].
    + subst y. destruct N as [N|[N|N]]; try congruence. assert (0 < q * q). { unfold q. replace (x + 0 * cg + 0 * cb) with x by ring. apply (Rsqr_pos_lt x N). } assert (0 < s * (q * q)) by (apply Rmult_lt_0_compat; auto). lra.
    + assert (0 < (s * y) * (s * y)). { apply Rsqr_pos_lt. apply Rmult_integral_contrapositive. split; lra. } replace (s * y + 0 * k) with (s * y) in * by ring. lra.
  - assert (0 < w * w) by (apply (Rsqr_pos_lt w W)). assert (0 < w * w * gram ca cb cg) by (apply Rmult_lt_0_compat; auto). lra.
Qed.
Lemma form_pos p h : proper p -> h 0%nat <> 0 \/ h 1%nat <> 0 \/ h 2%nat <> 0 -> 0 < dot33 (metric (cp_a0 p) (cp_win p)) h h.
Proof.
  intros (A & B & C & _ & _ & W & G) N. pose proof (cos_lt _ W) as S.
  replace (dot33 (metric (cp_a0 p) (cp_win p)) h h) with (let x := cp_a0 p 0%nat * h 0%nat in let y := cp_a0 p 1%nat * h 1%nat in let w := cp_a0 p 2%nat * h 2%nat in
    x * x + y * y + w * w + 2 * (x * y * cos (PI / 180 * cp_win p 2%nat)) + 2 * (x * w * cos (PI / 180 * cp_win p 1%nat)) + 2 * (y * w * cos (PI / 180 * cp_win p 0%nat))).
  - cbv zeta. apply quad_pos; auto. destruct N as [N|[N|N]]; [left|right; left|right; right]; apply Rmult_integral_contrapositive; split; auto; lra.
  - unfold dot33, metric, cell_cos. cbn [Nat.eqb Nat.add]. ring.
Qed.

Lemma dot_lin g a b x y : dot33 g (fun k => x * a k + y * b k) (fun k => x * a k + y * b k) = x * x * dot33 g a a + x * y * dot33 g a b + y * x * dot33 g b a + y * y * dot33 g b b.
Proof. unfold dot33. ring. Qed.
Section Make.
Variables (m n : zmat) (p : cphase).
Hypothesis (MN : inverse m n) (NM : inverse n m) (PR : proper p).
Let G := metric (cp_a0 p) (cp_win p).
Let S := scalar m G.
Definition col (i : nat) : v3 := fun k => IZR (m k i).
Lemma s_sym i j : S i j = S j i.
Proof. unfold S, scalar, dot33, G. rewrite (metric_sym _ _ 1 0), (metric_sym _ _ 2 0), (metric_sym _ _ 2 1). ring. Qed.
Lemma comb_nz i j x y : (i < 3)%nat -> (j < 3)%nat -> i <> j -> x <> 0 -> let h := fun k => x * IZR (m k i) + y * IZR (m k j) in h 0%nat <> 0 \/ h 1%nat <> 0 \/ h 2%nat <> 0.
Proof.
  intros Hi Hj D X h. destruct (Req_dec (h 0%nat) 0) as [A|A]; auto. destruct (Req_dec (h 1%nat) 0) as [B|B]; auto. destruct (Req_dec (h 2%nat) 0) as [C|C]; auto. exfalso. apply X.
  pose proof (inv_r n m NM i i Hi Hi) as E1. pose proof (inv_r n m NM i j Hi Hj) as E2. rewrite Nat.eqb_refl in E1. apply Nat.eqb_neq in D. rewrite D in E2.
  set (s1 := _ + _ + _) in E1. set (s2 := _ + _ + _) in E2. transitivity (x * s1 + y * s2). rewrite E1, E2; ring.
  transitivity (IZR (n i 0%nat) * h 0%nat + IZR (n i 1%nat) * h 1%nat + IZR (n i 2%nat) * h 2%nat). unfold h, s1, s2. ring. rewrite A, B, C. ring.
Qed.
Lemma s_pos i : (i < 3)%nat -> 0 < S i i.
Proof.
  intros Hi. apply form_pos; auto. set (j := ((i + 1) mod 3)%nat). assert (Hj : (j < 3)%nat) by (apply Nat.mod_upper_bound; lia). assert (D : i <> j) by (unfold j; destruct i as [|[|[|i]]]; cbn; lia).
  destruct (comb_nz i j 1 0 Hi Hj D R1_neq_R0) as [H|[H|H]]; cbv beta in H; [left|right; left|right; right]; intros E; apply H; rewrite E; ring.
Qed.
Lemma s_cauchy i j : (i < 3)%nat -> (j < 3)%nat -> i <> j -> S i j * S i j < S i i * S j j.
Proof.
  intros Hi Hj D. pose proof (s_pos j Hj) as J. pose proof (form_pos p _ PR (comb_nz i j (S j j) (- S i j) Hi Hj D (Rgt_not_eq _ _ J))) as F. fold G in F.
  assert (E : dot33 G (fun k => S j j * IZR (m k i) + - S i j * IZR (m k j)) (fun k => S j j * IZR (m k i) + - S i j * IZR (m k j)) = S j j * (S i i * S j j - S i j * S i j)).
  { rewrite (dot_lin G (fun k => IZR (m k i)) (fun k => IZR (m k j))). fold (scalar m G i i) (scalar m G i j) (scalar m G j i) (scalar m G j j). fold S. rewrite (s_sym j i). ring. }
  rewrite E in F. assert (0 < S i i * S j j - S i j * S i j); [|lra]. apply (Rmult_lt_reg_l (S j j)); auto. lra.
Qed.
Lemma e_pos i : (i < 3)%nat -> 0 < edge m G i.
Proof. intros Hi. apply sqrt_lt_R0. apply s_pos; auto. Qed.
Lemma e_sq i : (i < 3)%nat -> edge m G i * edge m G i = S i i.
Proof. intros Hi. apply sqrt_sqrt. apply Rlt_le. exact (s_pos i Hi). Qed.
Lemma c_in i j : (i < 3)%nat -> (j < 3)%nat -> i <> j -> -1 < S i j / (edge m G i * edge m G j) < 1.
Proof.
  intros Hi Hj D. pose proof (e_pos i Hi) as A. pose proof (e_pos j Hj) as B. set (e := edge m G i * edge m G j). assert (P : 0 < e) by (apply Rmult_lt_0_compat; auto).
  assert (Q : S i j * S i j < e * e). { pose proof (s_cauchy i j Hi Hj D) as C. rewrite <- (e_sq i Hi), <- (e_sq j Hj) in C. unfold e. lra. }
  assert (- e < S i j < e). { clear - P Q. generalize dependent e. generalize (S i j). intros x e P Q. split; nra. }
  split; apply (Rmult_lt_reg_r e); auto; unfold Rdiv; rewrite Rmult_assoc, Rinv_l by lra; lra.
Qed.
Lemma ang_cos i j : (i < 3)%nat -> (j < 3)%nat -> i <> j -> cos (PI / 180 * angle m G i j) = S i j / (edge m G i * edge m G j).
Proof.
  intros Hi Hj D. pose proof (c_in i j Hi Hj D) as C. unfold angle. fold S. pose proof PI_RGT_0. set (c := S i j / _) in *. change (scalar m G i j / (edge m G i * edge m G j)) with c. replace (PI / 180 * (180 / PI * acos c)) with (acos c) by (field; lra). apply cos_acos. lra.
Qed.
Lemma ang_in i j : (i < 3)%nat -> (j < 3)%nat -> i <> j -> 0 < angle m G i j < 180.
Proof.
  intros Hi Hj D. pose proof (c_in i j Hi Hj D) as C. unfold angle. set (c := S i j / _) in *. change (scalar m G i j / (edge m G i * edge m G j)) with c. pose proof (acos_bound_lt c C) as B. pose proof PI_RGT_0.
  split. apply Rmult_lt_0_compat; [apply Rdiv_lt_0_compat; lra|lra]. replace 180 with (180 / PI * PI) at 2 by (field; lra). apply Rmult_lt_compat_l; [apply Rdiv_lt_0_compat; lra|lra].
Qed.
Lemma new_metric i j : (i < 3)%nat -> (j < 3)%nat -> metric (new_a0 m p) (new_win m p) i j = S i j.
Proof.
  intros Hi Hj. unfold metric, new_a0. fold G. destruct (Nat.eqb_spec i j) as [->|D]. apply e_sq; auto.
  assert (X : cell_cos (new_win m p) i j = S i j / (edge m G i * edge m G j)).
  { unfold cell_cos. destruct i as [|[|[|i]]], j as [|[|[|j]]]; try lia; cbn [Nat.eqb Nat.add]; unfold new_win; fold G; rewrite ang_cos by lia; auto; rewrite s_sym, Rmult_comm; f_equal; f_equal; apply Rmult_comm. }
  rewrite X. pose proof (e_pos i Hi). pose proof (e_pos j Hj). field. lra.
Qed.
End Make.
(** ** the new structure *)
Lemma rebase_proper m n v z p : inverse m n -> inverse n m -> proper p -> proper (rebase m n v z p).
Proof.
  intros MN NM PR. unfold proper, rebase, recut. cbn [cp_a0 cp_win]. set (G := metric (cp_a0 p) (cp_win p)).
  assert (A : forall j, (j < 3)%nat -> 0 < new_a0 m p j) by (intros j Hj; apply (e_pos m n p); auto).
  assert (B0 : 0 < new_win m p 0%nat < 180) by (apply (ang_in m n p NM PR 1 2); lia). assert (B1 : 0 < new_win m p 1%nat < 180) by (apply (ang_in m n p NM PR 0 2); lia). assert (B2 : 0 < new_win m p 2%nat < 180) by (apply (ang_in m n p NM PR 0 1); lia).
  repeat split; try apply A; try lia; try apply B0; try apply B1; try apply B2.
  pose proof (det_metric (new_a0 m p) (new_win m p)) as D. rewrite (det_ext _ _ (new_metric m n p NM PR)) in D. fold G in D.
  rewrite (det_ext _ _ (fun i j _ _ => scalar_mul m G i j)), !det_mul, det_tr in D. pose proof (det_one m n MN) as U.
  assert (DG : 0 < det33 G). { unfold G. rewrite det_metric. destruct PR as (P0 & P1 & P2 & _ & _ & _ & GR). unfold ccos. assert (0 < cp_a0 p 0%nat * cp_a0 p 1%nat * cp_a0 p 2%nat) by (repeat apply Rmult_lt_0_compat; auto). apply Rmult_lt_0_compat; [apply Rmult_lt_0_compat|]; auto. }
  assert (Q : 0 < new_a0 m p 0%nat * new_a0 m p 1%nat * new_a0 m p 2%nat) by (repeat apply Rmult_lt_0_compat; apply A; lia). set (q := new_a0 m p 0%nat * new_a0 m p 1%nat * new_a0 m p 2%nat) in *.
  unfold ccos in D. set (gr := gram _ _ _) in *. assert (E : det33 G = q * q * gr). { rewrite <- D. transitivity (det33 (rz m) * det33 (rz m) * det33 G). rewrite U; ring. ring. }
  assert (QQ : 0 < q * q) by (apply Rmult_lt_0_compat; auto). apply (Rmult_lt_reg_l (q * q)); auto. rewrite Rmult_0_r, <- E. auto.
Qed.
Lemma recip_pos p k : proper p -> (k < 3)%nat -> 0 < sqrt (rmetric (cp_a0 p) (cp_win p) k k).
Proof.
  intros (P0 & P1 & P2 & W0 & W1 & W2 & GR) Hk. apply sqrt_lt_R0. unfold rmetric. apply Rdiv_lt_0_compat.
  - pose proof (cos_lt _ W0) as C0. pose proof (cos_lt _ W1) as C1. pose proof (cos_lt _ W2) as C2. unfold metric, cell_cos.
    destruct k as [|[|[|k]]]; [| | |lia]; cbn [Nat.add Nat.modulo Nat.divmod fst snd Nat.sub Nat.eqb].
    + match goal with |- 0 < ?x => replace x with (cp_a0 p 1%nat * cp_a0 p 1%nat * (cp_a0 p 2%nat * cp_a0 p 2%nat) * (1 - cos (PI / 180 * cp_win p 0%nat) * cos (PI / 180 * cp_win p 0%nat))) by ring end. repeat apply Rmult_lt_0_compat; auto.
    + match goal with |- 0 < ?x => replace x with (cp_a0 p 2%nat * cp_a0 p 2%nat * (cp_a0 p 0%nat * cp_a0 p 0%nat) * (1 - cos (PI / 180 * cp_win p 1%nat) * cos (PI / 180 * cp_win p 1%nat))) by ring end. repeat apply Rmult_lt_0_compat; auto.
    + match goal with |- 0 < ?x => replace x with (cp_a0 p 0%nat * cp_a0 p 0%nat * (cp_a0 p 1%nat * cp_a0 p 1%nat) * (1 - cos (PI / 180 * cp_win p 2%nat) * cos (PI / 180 * cp_win p 2%nat))) by ring end. repeat apply Rmult_lt_0_compat; auto.
  - rewrite det_metric. unfold ccos. assert (0 < cp_a0 p 0%nat * cp_a0 p 1%nat * cp_a0 p 2%nat) by (repeat apply Rmult_lt_0_compat; auto). apply Rmult_lt_0_compat; [apply Rmult_lt_0_compat|]; auto.
Qed.
Lemma tensor_sym p a i j : tensor p a i j = tensor p a j i.
Proof. unfold tensor. rewrite (Nat.eqb_sym i j), (off_sym i j). destruct (Nat.eqb_spec j i) as [->|]; ring. Qed.
Lemma dot_sym g x y : (forall i j, g i j = g j i) -> dot33 g x y = dot33 g y x.
Proof. intros H. unfold dot33. rewrite (H 1 0)%nat, (H 2 0)%nat, (H 2 1)%nat. ring. Qed.
Lemma dot_ext g g' x y : (forall i j, (i < 3)%nat -> (j < 3)%nat -> g i j = g' i j) -> dot33 g x y = dot33 g' x y.
Proof. intros H. unfold dot33. rewrite !H by lia. reflexivity. Qed.
Lemma new_tensor m n v z p zi a k l : inverse m n -> inverse n m -> proper p -> (k < 3)%nat -> (l < 3)%nat ->
  tensor (rebase m n v z p) (new_atom m n v p zi a) k l = dot33 (tensor p a) (fun i => IZR (n k i)) (fun i => IZR (n l i)).
Proof.
  intros MN NM PR Hk Hl. pose proof (rebase_proper m n v z p MN NM PR) as PR'. pose proof (recip_pos _ k PR' Hk) as SK. pose proof (recip_pos _ l PR' Hl) as SL.
  unfold tensor at 1. cbn [rebase recut cp_a0 cp_win] in *. set (s := fun k => sqrt (rmetric (new_a0 m p) (new_win m p) k k)) in *. change (0 < s k) in SK. change (0 < s l) in SL. fold (s k) (s l).
  set (t := tensor p a). assert (U : forall i j, dot33 t (fun x => IZR (n i x)) (fun x => IZR (n j x)) = dot33 t (fun x => IZR (n j x)) (fun x => IZR (n i x))) by (intros; apply dot_sym, tensor_sym).
  assert (X : at_u (new_atom m n v p zi a) (if (k =? l)%nat then k else off k l) = dot33 t (fun i => IZR (n k i)) (fun i => IZR (n l i)) / (s k * s l)).
  { destruct k as [|[|[|k]]], l as [|[|[|l]]]; try lia; cbn [Nat.eqb off Nat.add]; try reflexivity; rewrite U, (Rmult_comm (s _)); reflexivity. }
  rewrite X. field. lra.
Qed.
Lemma two_back m n t i j : inverse m n -> (i < 3)%nat -> (j < 3)%nat ->
  dot33 (fun k l => dot33 t (fun x => IZR (n k x)) (fun x => IZR (n l x))) (fun k => IZR (m i k)) (fun k => IZR (m j k)) = t i j.
Proof.
  intros MN Hi Hj. set (s := fun i x => IZR (m i 0%nat) * IZR (n 0%nat x) + IZR (m i 1%nat) * IZR (n 1%nat x) + IZR (m i 2%nat) * IZR (n 2%nat x)).
  transitivity (dot33 t (s i) (s j)). unfold dot33, s. ring.
  assert (E : forall i x, (i < 3)%nat -> (x < 3)%nat -> s i x = if (i =? x)%nat then 1 else 0) by (intros; apply inv_r; auto).
  unfold dot33. rewrite !E by lia. destruct i as [|[|[|i]]], j as [|[|[|j]]]; try lia; cbn [Nat.eqb]; ring.
Qed.
Lemma rebase_rebased m n v z p : inverse m n -> inverse n m -> proper p -> (forall k, cp_icc p k = 1%Z) -> rebased m n v z p (rebase m n v z p).
Proof.
  intros MN NM PR I. assert (N : natoms (rebase m n v z p) = natoms p) by (unfold natoms at 1; cbn [rebase recut cp_atoms]; rewrite map_length, seq_length; reflexivity).
  split; auto. split; auto. split; auto. split. reflexivity. split. { intros i j Hi Hj. exact (new_metric m n p NM PR i j Hi Hj). } split; auto.
  intros i Hi. assert (E : atom_no (rebase m n v z p) i = new_atom m n v p (z i) (atom_no p i)).
  { unfold atom_no at 1. cbn [rebase recut cp_atoms]. set (f := fun i => new_atom m n v p (z i) (atom_no p i)). rewrite (nth_indep _ no_atom (f 0%nat)) by (rewrite map_length, seq_length; auto). rewrite map_nth, seq_nth by auto. reflexivity. }
  rewrite E. split. reflexivity. split. reflexivity. split. reflexivity.
  intros k l Hk Hl. rewrite <- (two_back m n (tensor p (atom_no p i)) k l MN Hk Hl). symmetry. apply dot_ext. intros. apply new_tensor; auto.
Qed.
