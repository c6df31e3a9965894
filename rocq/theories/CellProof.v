(** Proofs about the quantities of a cell and their deviations. *)
From Coq Require Import Ascii String.
From Coq Require Import List Arith ZArith Reals Bool Lia Lra Psatz.
From Verif Require Import Base MathModel MathProof MetricModel MetricSpec MetricProof DerivCalc CellModel CellSpec.
From Verif Require BondModel BondErr.
Import ListNotations.
Local Open Scope R_scope.

(** * inequalities *)
Lemma abs_mul_le u x D X : Rabs u <= D -> Rabs x <= X -> Rabs (u * x) <= D * X.
Proof. intros U B. rewrite Rabs_mult. apply Rmult_le_compat; auto using Rabs_pos. Qed.
Lemma abs_sub x y : Rabs (x - y) <= Rabs x + Rabs y.
Proof. unfold Rminus. eapply Rle_trans. apply Rabs_triang. rewrite Rabs_Ropp. lra. Qed.
Lemma one_term u cx cy cz D : Rabs u <= D -> Rabs (u * (cx - cy * cz)) <= D * (Rabs cx + Rabs cy * Rabs cz).
Proof. intros U. apply abs_mul_le; auto. eapply Rle_trans. apply abs_sub. rewrite Rabs_mult. lra. Qed.
Lemma abs3 x y z X Y Z : Rabs x <= X -> Rabs y <= Y -> Rabs z <= Z -> Rabs (x + y + z) <= X + Y + Z.
Proof. intros A B C. pose proof (Rabs_triang (x + y) z). pose proof (Rabs_triang x y). lra. Qed.
(** the volume *)
Lemma vol_le a b c S g dg ea eb ec da db dc : 0 < a -> 0 < b -> 0 < c -> 0 < S -> Rabs ea <= da -> Rabs eb <= db -> Rabs ec <= dc -> Rabs g <= dg ->
  Rabs ((ea * b * c + a * eb * c + a * b * ec) * S + a * b * c * (2 * g / (2 * S))) <=
  (1 / 2) / S * (2 * dg) * a * b * c + S * (da * b * c + a * db * c + a * b * dc).
Proof.
  intros A B C SP EA EB EC G.
  assert (H1 : Rabs ((ea * b * c + a * eb * c + a * b * ec) * S) <= (da * b * c + a * db * c + a * b * dc) * S).
  { rewrite Rabs_mult, (Rabs_right S) by lra. apply Rmult_le_compat_r; [lra|]. apply abs3.
    - rewrite Rabs_mult, Rabs_mult, (Rabs_right b), (Rabs_right c) by lra. apply Rmult_le_compat_r; [lra|]. apply Rmult_le_compat_r; lra.
    - rewrite Rabs_mult, Rabs_mult, (Rabs_right a), (Rabs_right c) by lra. apply Rmult_le_compat_r; [lra|]. apply Rmult_le_compat_l; lra.
    - rewrite Rabs_mult, Rabs_mult, (Rabs_right b), (Rabs_right a) by lra. apply Rmult_le_compat_l; [|auto]. apply Rmult_le_pos; lra. }
  assert (H2 : Rabs (a * b * c * (2 * g / (2 * S))) <= a * b * c * (dg / S)).
  { assert (P : 0 < a * b * c) by (repeat apply Rmult_lt_0_compat; auto). rewrite Rabs_mult, (Rabs_right (a * b * c)) by lra. apply Rmult_le_compat_l; [lra|].
    replace (2 * g / (2 * S)) with (g * / S) by (field; lra). pose proof (Rinv_0_lt_compat S SP). rewrite Rabs_mult, (Rabs_right (/ S)) by lra. apply Rmult_le_compat_r; lra. }
  eapply Rle_trans. apply Rabs_triang. replace ((1 / 2) / S * (2 * dg) * a * b * c) with (a * b * c * (dg / S)) by (field; lra). lra.
Qed.
(** a reciprocal edge *)
Lemma edge_le a b c S G cx sx t u r da db dc dx dr ea : 0 < a -> 0 < b -> 0 < c -> 0 < S -> G = S * S -> 0 < sx -> G <= sx * sx ->
  Rabs ea <= da -> 0 <= db -> 0 <= dc -> Rabs u <= dx -> Rabs r <= dr -> forall T, Rabs t <= T ->
  Rabs (cx * u / (a * S) - sx * ea / (a * a * S) - sx * (2 * (sx * u * (cx - t) + r)) / (2 * a * G * S)) <=
  ((db * c + b * dc) * sx + b * c * (cx * dx)) / (S * a * b * c)
  + b * c * sx / (S * a * b * c * (S * a * b * c)) * ((1 / 2) / S * (2 * (sx * dx * (Rabs cx + T) + dr)) * a * b * c + S * (da * b * c + a * db * c + a * b * dc)).
Proof.
  intros A B C SP GE SX GL EA DB DC U RR T TT. assert (GP : 0 < G) by (rewrite GE; nra).
  set (K := sx * sx / G). assert (K1 : 1 <= K). { unfold K. apply Rmult_le_reg_r with G; auto. field_simplify (sx * sx / G * G); lra. }
  assert (IAS : 0 < / (a * S)) by (apply Rinv_0_lt_compat; nra).
  assert (DX : 0 <= dx) by (pose proof (Rabs_pos u); lra). assert (DA : 0 <= da) by (pose proof (Rabs_pos ea); lra). assert (DR : 0 <= dr) by (pose proof (Rabs_pos r); lra).
  replace (cx * u / (a * S) - sx * ea / (a * a * S) - sx * (2 * (sx * u * (cx - t) + r)) / (2 * a * G * S)) with
    ((u * (cx - K * (cx - t)) - sx * (ea / a) - sx * (r / G)) * / (a * S)) by (unfold K; field; lra).
  match goal with |- _ <= ?x => replace x with ((cx * dx + K * dx * (Rabs cx + T) + sx * (db / b + dc / c + (da / a + db / b + dc / c)) + sx * (dr / G)) * / (a * S)) end.
  2:{ unfold K. rewrite GE. field. lra. }
  rewrite Rabs_mult, (Rabs_right (/ (a * S))) by lra. apply Rmult_le_compat_r; [lra|].
  assert (H1 : Rabs (u * (cx - K * (cx - t))) <= cx * dx + K * dx * (Rabs cx + T)).
  { assert (X : Rabs (cx - K * (cx - t)) <= cx + K * (Rabs cx + T)).
    { replace (cx - K * (cx - t)) with ((1 - K) * cx + K * t) by ring. eapply Rle_trans. apply Rabs_triang. rewrite !Rabs_mult, (Rabs_left1 (1 - K)), (Rabs_right K) by lra.
      assert (- cx <= Rabs cx) by (rewrite <- Rabs_Ropp; apply Rle_abs). assert (K * Rabs t <= K * T) by (apply Rmult_le_compat_l; lra). lra. }
    eapply Rle_trans. apply (abs_mul_le u _ dx _ U X). right. ring. }
  assert (H2 : Rabs (sx * (ea / a)) <= sx * (da / a)).
  { rewrite Rabs_mult, (Rabs_right sx) by lra. apply Rmult_le_compat_l; [lra|]. unfold Rdiv. pose proof (Rinv_0_lt_compat a A). rewrite Rabs_mult, (Rabs_right (/ a)) by lra. apply Rmult_le_compat_r; lra. }
  assert (H3 : Rabs (sx * (r / G)) <= sx * (dr / G)).
  { rewrite Rabs_mult, (Rabs_right sx) by lra. apply Rmult_le_compat_l; [lra|]. unfold Rdiv. pose proof (Rinv_0_lt_compat G GP). rewrite Rabs_mult, (Rabs_right (/ G)) by lra. apply Rmult_le_compat_r; lra. }
  assert (H4 : 0 <= sx * (db / b + dc / c + (db / b + dc / c))).
  { apply Rmult_le_pos; [lra|]. pose proof (Rinv_0_lt_compat b B). pose proof (Rinv_0_lt_compat c C). assert (0 <= db / b) by (apply Rmult_le_pos; lra). assert (0 <= dc / c) by (apply Rmult_le_pos; lra). lra. }
  pose proof (abs_sub (u * (cx - K * (cx - t)) - sx * (ea / a)) (sx * (r / G))). pose proof (abs_sub (u * (cx - K * (cx - t))) (sx * (ea / a))). lra.
Qed.

(** * derivatives; the angles x, y and z in degrees, e the changes *)
Section Core.
Variables a b c x y z ea eb ec ex ey ez : R.
Let A s := a + s * ea. Let B s := b + s * eb. Let C s := c + s * ec.
Definition co (x ex s : R) : R := cos (rad * (x + s * ex)).
Definition si (x ex s : R) : R := sin (rad * (x + s * ex)).
Lemma co0 w e : co w e 0 = m_cosd w. Proof. unfold co, m_cosd. f_equal. ring. Qed.
Lemma si0 w e : si w e 0 = m_sind w. Proof. unfold si, m_sind. f_equal. ring. Qed.
Lemma dco w e : derivable_pt_lim (co w e) 0 (- (m_sind w * (rad * e))).
Proof.
  eapply dl_eq. apply (BondErr.dcos (fun s => rad * (w + s * e))). apply dcm. apply BondErr.dlin. cbv beta. unfold m_sind. replace (rad * (w + 0 * e)) with (rad * w) by ring. ring.
Qed.
Lemma dsi w e : derivable_pt_lim (si w e) 0 (m_cosd w * (rad * e)).
Proof.
  eapply dl_eq. apply (derivable_pt_lim_comp (fun s => rad * (w + s * e)) sin 0 (rad * e) (cos (rad * (w + 0 * e)))). apply dcm. apply BondErr.dlin. apply derivable_pt_lim_sin.
  unfold m_cosd. replace (rad * (w + 0 * e)) with (rad * w) by ring. ring.
Qed.
Definition gr (s : R) : R := gram (co x ex s) (co y ey s) (co z ez s).
Definition half_dg : R :=
  m_sind x * (rad * ex) * (m_cosd x - m_cosd y * m_cosd z) + m_sind y * (rad * ey) * (m_cosd y - m_cosd x * m_cosd z) + m_sind z * (rad * ez) * (m_cosd z - m_cosd x * m_cosd y).
Lemma gr0 : gr 0 = gram (m_cosd x) (m_cosd y) (m_cosd z). Proof. unfold gr. rewrite !co0. reflexivity. Qed.
Lemma dgr : derivable_pt_lim gr 0 (2 * half_dg).
Proof.
  unfold gr, gram. eapply dl_eq.
  - apply (dp (fun s => 1 - co x ex s * co x ex s - co y ey s * co y ey s - co z ez s * co z ez s) (fun s => 2 * co x ex s * co y ey s * co z ez s)).
    + apply (dmi (fun s => 1 - co x ex s * co x ex s - co y ey s * co y ey s) (fun s => co z ez s * co z ez s)).
      apply (dmi (fun s => 1 - co x ex s * co x ex s) (fun s => co y ey s * co y ey s)).
      apply (dmi (fun s => 1) (fun s => co x ex s * co x ex s)). apply derivable_pt_lim_const. all: apply dm; apply dco.
    + apply (dm (fun s => 2 * co x ex s * co y ey s) (co z ez)); [|apply dco]. apply (dm (fun s => 2 * co x ex s) (co y ey)); [|apply dco]. apply dcm. apply dco.
  - rewrite !co0. unfold half_dg. ring.
Qed.
Hypothesis AP : 0 < a. Hypothesis BP : 0 < b. Hypothesis CP : 0 < c.
Hypothesis GP : 0 < gram (m_cosd x) (m_cosd y) (m_cosd z).
Hypothesis SX : 0 < m_sind x. Hypothesis SY : 0 < m_sind y. Hypothesis SZ : 0 < m_sind z.
Let S := sqrt (gram (m_cosd x) (m_cosd y) (m_cosd z)).
Lemma SP : 0 < S. Proof. apply sqrt_lt_R0. auto. Qed.
Lemma SS : S * S = gram (m_cosd x) (m_cosd y) (m_cosd z). Proof. apply sqrt_sqrt. lra. Qed.
Lemma dvol : derivable_pt_lim (fun s => A s * B s * C s * sqrt (gr s)) 0 ((ea * b * c + a * eb * c + a * b * ec) * S + a * b * c * (2 * half_dg / (2 * S))).
Proof.
  eapply dl_eq.
  - apply (dm (fun s => A s * B s * C s) (fun s => sqrt (gr s))).
    + apply (dm (fun s => A s * B s) C). apply (dm A B); apply BondErr.dlin. apply BondErr.dlin.
    + apply dsq. rewrite gr0. auto. apply dgr.
  - rewrite gr0. unfold A, B, C. rewrite !Rmult_0_l, !Rplus_0_r. fold S. ring.
Qed.
Lemma dedge : derivable_pt_lim (fun s => si x ex s / (A s * sqrt (gr s))) 0
  (m_cosd x * (rad * ex) / (a * S) - m_sind x * ea / (a * a * S) - m_sind x * (2 * half_dg) / (2 * a * (S * S) * S)).
Proof.
  pose proof SP as P. eapply dl_eq.
  - apply (ddv (si x ex) (fun s => A s * sqrt (gr s))).
    + unfold A. rewrite gr0, Rmult_0_l, Rplus_0_r. fold S. nra.
    + apply dsi.
    + apply (dm A (fun s => sqrt (gr s))). apply BondErr.dlin. apply dsq. rewrite gr0. auto. apply dgr.
  - rewrite gr0, si0. unfold A. rewrite Rmult_0_l, Rplus_0_r. fold S. field. lra.
Qed.
(** the angle opposite to x *)
Definition carg : R := (m_cosd y * m_cosd z - m_cosd x) / (m_sind y * m_sind z).
Lemma carg_sq : 1 - carg * carg = gram (m_cosd x) (m_cosd y) (m_cosd z) / ((m_sind y * m_sind z) * (m_sind y * m_sind z)).
Proof.
  unfold carg. pose proof (sincosd y) as Y. pose proof (sincosd z) as Z.
  assert (E : gram (m_cosd x) (m_cosd y) (m_cosd z) = (m_sind y * m_sind y) * (m_sind z * m_sind z) - (m_cosd y * m_cosd z - m_cosd x) * (m_cosd y * m_cosd z - m_cosd x)).
  { replace (m_sind y * m_sind y) with (1 - m_cosd y * m_cosd y) by lra. replace (m_sind z * m_sind z) with (1 - m_cosd z * m_cosd z) by lra. unfold gram. ring. }
  rewrite E. field. lra.
Qed.
Lemma carg_in : -1 < carg < 1.
Proof.
  assert (0 < 1 - carg * carg).
  { rewrite carg_sq. apply Rmult_lt_0_compat; auto. apply Rinv_0_lt_compat. assert (0 < m_sind y * m_sind z) by nra. nra. }
  split; nra.
Qed.
Lemma dangle : derivable_pt_lim (fun s => 180 / PI * acos ((co y ey s * co z ez s - co x ex s) / (si y ey s * si z ez s))) 0
  (180 / PI * (-1 / sqrt (1 - carg * carg)) * (rad * (ex * m_sind x / (m_sind y * m_sind z) - ey * (m_cosd z / m_sind z + carg * m_cosd y / m_sind y) - ez * (m_cosd y / m_sind y + carg * m_cosd z / m_sind z)))).
Proof.
  assert (Q : (co y ey 0 * co z ez 0 - co x ex 0) / (si y ey 0 * si z ez 0) = carg) by (rewrite !co0, !si0; reflexivity).
  eapply dl_eq.
  - apply (dcm (180 / PI) (fun s => acos ((co y ey s * co z ez s - co x ex s) / (si y ey s * si z ez s)))).
    apply (BondErr.dacos (fun s => (co y ey s * co z ez s - co x ex s) / (si y ey s * si z ez s))). rewrite Q. apply carg_in.
    apply (ddv (fun s => co y ey s * co z ez s - co x ex s) (fun s => si y ey s * si z ez s)).
    + rewrite !si0. nra.
    + apply (dmi (fun s => co y ey s * co z ez s) (co x ex)). apply dm; apply dco. apply dco.
    + apply dm; apply dsi.
  - cbv beta. rewrite Q, !co0, !si0. assert (QP : sqrt (1 - carg * carg) <> 0) by (pose proof carg_in; apply Rgt_not_eq, sqrt_lt_R0; nra).
    revert QP. generalize (sqrt (1 - carg * carg)). intros q QP. pose proof PI_RGT_0. unfold carg. field. repeat split; lra.
Qed.
End Core.

(** * the quantities of the specification *)
Definition j1 (i : nat) : nat := ((i + 1) mod 3)%nat.
Definition j2 (i : nat) : nat := ((i + 2) mod 3)%nat.
Definition gw (w : v3) : R := gram (m_cosd (w 0%nat)) (m_cosd (w 1%nat)) (m_cosd (w 2%nat)).
Definition fine (a w : v3) : Prop := (forall k, (k < 3)%nat -> 0 < a k /\ 0 < m_sind (w k)) /\ 0 < gw w.
Lemma lt3 k : (k < 3)%nat -> k = 0%nat \/ k = 1%nat \/ k = 2%nat. Proof. lia. Qed.
Lemma gw_rot w i : (i < 3)%nat -> gram (m_cosd (w i)) (m_cosd (w (j1 i))) (m_cosd (w (j2 i))) = gw w.
Proof. intros I. destruct (lt3 i I) as [-> | [-> | ->]]; unfold gw, gram; cbn [j1 j2 Nat.add Nat.modulo Nat.divmod fst snd Nat.sub]; ring. Qed.
Lemma volume_eq a w : fine a w -> volume a w = a 0%nat * a 1%nat * a 2%nat * sqrt (gw w).
Proof.
  intros [P G]. unfold volume. rewrite det_metric. destruct (P 0%nat) as [A0 _]; [lia|]. destruct (P 1%nat) as [A1 _]; [lia|]. destruct (P 2%nat) as [A2 _]; [lia|].
  assert (V : 0 < a 0%nat * a 1%nat * a 2%nat) by (repeat apply Rmult_lt_0_compat; auto).
  rewrite sqrt_mult_alt by nra. rewrite sqrt_square by lra. reflexivity.
Qed.
Lemma redge_eq i a w : (i < 3)%nat -> fine a w -> redge i a w = m_sind (w i) / (a i * sqrt (gw w)).
Proof.
  intros I [P G]. destruct (P 0%nat) as [A0 S0]; [lia|]. destruct (P 1%nat) as [A1 S1]; [lia|]. destruct (P 2%nat) as [A2 S2]; [lia|].
  pose proof (sqrt_lt_R0 _ G) as SG. assert (SQ : sqrt (gw w) * sqrt (gw w) = gw w) by (apply sqrt_sqrt; lra).
  assert (E : rmetric a w i i = (m_sind (w i) / (a i * sqrt (gw w))) * (m_sind (w i) / (a i * sqrt (gw w)))).
  { replace (m_sind (w i) / (a i * sqrt (gw w)) * (m_sind (w i) / (a i * sqrt (gw w)))) with (m_sind (w i) * m_sind (w i) / (a i * a i * gw w)).
    2:{ rewrite <- SQ at 1. field. destruct (P i I). lra. }
    pose proof (sincosd (w i)) as SC. replace (m_sind (w i) * m_sind (w i)) with (1 - m_cosd (w i) * m_cosd (w i)) by lra.
    unfold rmetric. rewrite det_metric. change (ccos w 0) with (m_cosd (w 0%nat)). change (ccos w 1) with (m_cosd (w 1%nat)). change (ccos w 2) with (m_cosd (w 2%nat)). fold (gw w).
    destruct (lt3 i I) as [-> | [-> | ->]]; cbn [Nat.add Nat.modulo Nat.divmod fst snd Nat.sub]; unfold metric, cell_cos; cbn [Nat.eqb Nat.add];
    match goal with |- context [cos (PI / 180 * w ?k)] => change (cos (PI / 180 * w k)) with (m_cosd (w k)) end; field; lra. }
  unfold redge. rewrite E. apply sqrt_square. destruct (P i I). apply Rlt_le. apply Rdiv_lt_0_compat; auto. nra.
Qed.
Lemma rangle_eq i a w : (i < 3)%nat -> fine a w ->
  rangle i a w = 180 / PI * acos ((m_cosd (w (j1 i)) * m_cosd (w (j2 i)) - m_cosd (w i)) / (m_sind (w (j1 i)) * m_sind (w (j2 i)))).
Proof.
  intros I F. assert (I1 : (j1 i < 3)%nat) by (apply Nat.mod_upper_bound; lia). assert (I2 : (j2 i < 3)%nat) by (apply Nat.mod_upper_bound; lia).
  unfold rangle. fold (j1 i) (j2 i). rewrite !redge_eq by auto. f_equal. f_equal. destruct F as [P G]. pose proof (sqrt_lt_R0 _ G) as SG. assert (SQ : sqrt (gw w) * sqrt (gw w) = gw w) by (apply sqrt_sqrt; lra).
  destruct (P _ I1) as [A1 S1]. destruct (P _ I2) as [A2 S2]. destruct (P _ I) as [A0 S0].
  assert (E : rmetric a w (j1 i) (j2 i) = (m_cosd (w (j1 i)) * m_cosd (w (j2 i)) - m_cosd (w i)) / (a (j1 i) * a (j2 i) * gw w)).
  { unfold rmetric. rewrite det_metric. change (ccos w 0) with (m_cosd (w 0%nat)). change (ccos w 1) with (m_cosd (w 1%nat)). change (ccos w 2) with (m_cosd (w 2%nat)). fold (gw w).
    destruct (lt3 i I) as [-> | [-> | ->]]; cbn [j1 j2 Nat.add Nat.modulo Nat.divmod fst snd Nat.sub] in *; unfold metric, cell_cos; cbn [Nat.eqb Nat.add];
    repeat match goal with |- context [cos (PI / 180 * w ?k)] => change (cos (PI / 180 * w k)) with (m_cosd (w k)) end; field; lra. }
  rewrite E. revert SG SQ. generalize (sqrt (gw w)). intros q SG SQ. rewrite <- SQ. field. lra.
Qed.

(** the changed cell is one as well *)
Lemma near_and (P Q : R -> Prop) : (exists e, 0 < e /\ forall s, Rabs (s - 0) < e -> P s) -> (exists e, 0 < e /\ forall s, Rabs (s - 0) < e -> Q s) ->
  exists e, 0 < e /\ forall s, Rabs (s - 0) < e -> P s /\ Q s.
Proof.
  intros (e & E & H) (f & F & K). exists (Rmin e f). split. apply Rmin_pos; auto. intros s L. split; [apply H|apply K]; eapply Rlt_le_trans; eauto. apply Rmin_l. apply Rmin_r.
Qed.
Lemma near_fine a w ea ew : fine a w -> exists e, 0 < e /\ forall s, Rabs (s - 0) < e -> fine (moved a ea s) (moved w ew s).
Proof.
  intros [P G].
  assert (N : forall k, (k < 3)%nat -> exists e, 0 < e /\ forall s, Rabs (s - 0) < e -> 0 < moved a ea s k /\ 0 < m_sind (moved w ew s k)).
  { intros k K. destruct (P k K) as [A S0]. apply near_and.
    - apply (side_gt (fun s => a k + s * ea k) 0 0). eapply dcont, BondErr.dlin. cbv beta. rewrite Rmult_0_l, Rplus_0_r. auto.
    - apply (side_gt (si (w k) (ew k)) 0 0). eapply dcont, dsi. rewrite si0. auto. }
  assert (NG : exists e, 0 < e /\ forall s, Rabs (s - 0) < e -> 0 < gw (moved w ew s)).
  { apply (side_gt (gr (w 0%nat) (w 1%nat) (w 2%nat) (ew 0%nat) (ew 1%nat) (ew 2%nat)) 0 0). eapply dcont, dgr. rewrite gr0. auto. }
  destruct (near_and _ _ (N 0%nat ltac:(lia)) (near_and _ _ (N 1%nat ltac:(lia)) (near_and _ _ (N 2%nat ltac:(lia)) NG))) as (e & E & H).
  exists e. split; auto. intros s L. destruct (H s L) as (H0 & H1 & H2 & H3). split; auto. intros k K. destruct (lt3 k K) as [-> | [-> | ->]]; auto.
Qed.
Lemma bounds_by a w da dw f g d : fine a w -> (forall a w, fine a w -> f a w = g a w) -> bounds a w da dw g d -> bounds a w da dw f d.
Proof.
  intros F E B ea ew H. destruct (B ea ew H) as (l & L & D). exists l. split; auto. destruct (near_fine a w ea ew F) as (e & EP & N).
  eapply dl_local; [exact EP| |exact L]. intros s S0. symmetry. cbv beta. apply E. apply N. auto.
Qed.

(** * what is computed *)
Section Cell.
Variables (a0 win da0 dwin : v3) (icc : nat -> Z) (occ docc : list R) (c : cell_t).
Hypothesis OK : cell a0 win da0 dwin icc occ docc = Ok c.
Lemma cell_gw : double_eps < gw win.
Proof. revert OK. unfold cell. cbv zeta. destruct (Rle_dec _ _) as [L|L]; [discriminate|]. intros _. unfold gw, gram. unfold m_sqr in L. lra. Qed.
Let S := sqrt (gw win).
Let D k := Rabs (m_sind (win k) * rad * dwin k).
Let AC k := Rabs (m_cosd (win k)).
Definition dvoll : R := D 0%nat * (AC 0%nat + AC 1%nat * AC 2%nat) + D 1%nat * (AC 1%nat + AC 0%nat * AC 2%nat) + D 2%nat * (AC 2%nat + AC 0%nat * AC 1%nat).
Lemma voll_eq : 1 - m_sqr (m_cosd (win 0%nat)) - m_sqr (m_cosd (win 1%nat)) - m_sqr (m_cosd (win 2%nat)) + 2 * m_cosd (win 0%nat) * m_cosd (win 1%nat) * m_cosd (win 2%nat) = gw win.
Proof. reflexivity. Qed.
Lemma get_v : ce_v c = S * a0 0%nat * a0 1%nat * a0 2%nat.
Proof. revert OK. unfold cell. cbv zeta. rewrite voll_eq. destruct (Rle_dec _ _); [discriminate|]. intros H. inversion H. reflexivity. Qed.
Lemma get_dv : ce_dv c = (1 / 2) / S * (2 * dvoll) * a0 0%nat * a0 1%nat * a0 2%nat
  + S * (da0 0%nat * a0 1%nat * a0 2%nat + a0 0%nat * da0 1%nat * a0 2%nat + a0 0%nat * a0 1%nat * da0 2%nat).
Proof.
  revert OK. unfold cell. cbv zeta. rewrite voll_eq. destruct (Rle_dec _ _); [discriminate|]. intros H. inversion H. cbn [ce_dv]. fold S. f_equal.
  replace (2 * dvoll) with (2 * (AC 0%nat * D 0%nat + AC 1%nat * D 1%nat + AC 2%nat * D 2%nat + D 0%nat * AC 1%nat * AC 2%nat + AC 0%nat * D 1%nat * AC 2%nat + AC 0%nat * AC 1%nat * D 2%nat)) by (unfold dvoll; ring).
  reflexivity.
Qed.
Lemma get_vr : ce_vr c = 1 / ce_v c /\ ce_dvr c = 1 / (ce_v c * ce_v c) * ce_dv c.
Proof. revert OK. unfold cell. cbv zeta. destruct (Rle_dec _ _); [discriminate|]. intros H. inversion H. split; reflexivity. Qed.
Lemma get_ar i : ce_ar c i = a0 (j1 i) * a0 (j2 i) * m_sind (win i) / ce_v c.
Proof. revert OK. unfold cell. cbv zeta. destruct (Rle_dec _ _); [discriminate|]. intros H. inversion H. reflexivity. Qed.
Lemma get_dar i : ce_dar c i = ((da0 (j1 i) * a0 (j2 i) + a0 (j1 i) * da0 (j2 i)) * m_sind (win i) + a0 (j1 i) * a0 (j2 i) * (m_cosd (win i) * rad * dwin i)) / ce_v c
      + a0 (j1 i) * a0 (j2 i) * m_sind (win i) / (ce_v c * ce_v c) * ce_dv c.
Proof. revert OK. unfold cell. cbv zeta. destruct (Rle_dec _ _); [discriminate|]. intros H. inversion H. reflexivity. Qed.
Definition carg_of (i : nat) : R := carg (win i) (win (j1 i)) (win (j2 i)).
Lemma get_wrez i : ce_wrez c i = m_acosd (carg_of i).
Proof. revert OK. unfold cell. cbv zeta. destruct (Rle_dec _ _); [discriminate|]. intros H. inversion H. reflexivity. Qed.
Lemma get_dwrez i : ce_dwrez c i =
  1 / sqrt (1 - carg_of i * carg_of i) *
  ((m_sind (win (j1 i)) * rad * dwin (j1 i) * m_cosd (win (j2 i)) + m_cosd (win (j1 i)) * (m_sind (win (j2 i)) * rad * dwin (j2 i)) + m_sind (win i) * rad * dwin i) / (m_sind (win (j1 i)) * m_sind (win (j2 i)))
   + carg_of i / m_sind (win (j1 i)) * (m_cosd (win (j1 i)) * rad * dwin (j1 i)) + carg_of i / m_sind (win (j2 i)) * (m_cosd (win (j2 i)) * rad * dwin (j2 i))) / rad.
Proof. revert OK. unfold cell. cbv zeta. destruct (Rle_dec _ _); [discriminate|]. intros H. inversion H. reflexivity. Qed.
Lemma get_rho : ce_rho0 c = fold_left Rplus occ 0 / (IZR (icc 0%nat * icc 1%nat * icc 2%nat) * ce_v c) /\
  ce_drho0 c = sqrt (m_sqr (fold_left Rplus docc 0 / ce_v c) + m_sqr (ce_dv c * fold_left Rplus occ 0 / m_sqr (ce_v c))).
Proof. revert OK. unfold cell. cbv zeta. destruct (Rle_dec _ _); [discriminate|]. intros H. inversion H. split; reflexivity. Qed.
Lemma get_lattice : exists l, lattice a0 win = Ok l /\ ce_v c = l_v l /\ ce_ar c = l_ar l /\ ce_wrez c = l_wrez l /\ ce_gten c = l_gten l /\ ce_rten c = l_rten l.
Proof.
  revert OK. unfold cell, lattice. cbv zeta. destruct (Rle_dec _ _); [discriminate|]. intros H. inversion H. eexists. split. reflexivity. cbn [ce_v ce_ar ce_wrez ce_gten ce_rten l_v l_ar l_wrez l_gten l_rten]. auto.
Qed.
Lemma get_dtens : ce_dgten c = BondModel.dtensor a0 win da0 dwin /\ ce_drten c = BondModel.dtensor (ce_ar c) (ce_wrez c) (ce_dar c) (ce_dwrez c).
Proof. revert OK. unfold cell. cbv zeta. destruct (Rle_dec _ _); [discriminate|]. intros H. inversion H. split; reflexivity. Qed.
End Cell.
