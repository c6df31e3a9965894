(** Phases and data sets that differ in the scale factors of the phases. *)
From Coq Require Import List Arith ZArith Reals Bool Lia Lra FunctionalExtensionality.
From Verif Require Import Base RSum Util ParamModel ParamProof ParserModel MathModel MathSpec MatrixModel MatrixProof ConModel MetricModel PdfModel PdfSpec LayoutModel LayoutSpec LayoutProof DerivModel DerivSpec DerivRow DerivFinal TheoryModel TheorySpec TheoryMem ScaleCols ScaleSpec.
Import ListNotations.
Local Open Scope R_scope.

Section Load.
Variable addr : rvar -> nat.
Variables (natoms : list nat) (nset : nat).
Variables mA mB : nat -> R.
Hypothesis EQ : forall v, exists_var natoms nset v -> (forall ip, v <> PV ip FPscale) -> mA (addr v) = mB (addr v).

Lemma load_atoms ip : forall l k, (ip < length natoms)%nat -> (k + length l <= nth ip natoms 0)%nat ->
  map (load_atom addr mA ip) (combine (seq k (length l)) l) = map (load_atom addr mB ip) (combine (seq k (length l)) l).
Proof.
  induction l as [|a l IH]; intros k Hp H; cbn [length seq combine map]; auto. cbn [length] in H. f_equal. 2: apply IH; auto; lia.
  assert (V : forall f, atom_field_ok f -> mA (addr (AV ip k f)) = mB (addr (AV ip k f))). { intros f Hf. apply EQ. simpl. repeat split; auto; lia. intros; discriminate. }
  unfold load_atom. f_equal.
  - apply functional_extensionality. intros i. destruct (Nat.ltb_spec i 3); auto.
  - apply functional_extensionality. intros i. destruct (Nat.ltb_spec i 6); auto.
  - apply V. exact I.
Qed.
Lemma load_all : forall ph k, (forall i p, nth_error ph i = Some p -> nth_error natoms (k + i) = Some (length (cp_atoms p))) ->
  map (load_phase addr mA) (combine (seq k (length ph)) ph) = rescale (fun ip => mA (addr (PV ip FPscale))) k (map (load_phase addr mB) (combine (seq k (length ph)) ph)).
Proof.
  induction ph as [|p ph IH]; intros k H; cbn [length seq combine map rescale]; auto. f_equal.
  2:{ apply IH. intros i q Q. replace (S k + i)%nat with (k + S i)%nat by lia. apply H. exact Q. }
  assert (N : nth_error natoms k = Some (length (cp_atoms p))). { rewrite <- (Nat.add_0_r k). apply H. reflexivity. }
  assert (Hk : (k < length natoms)%nat) by (apply nth_error_Some; congruence).
  assert (V : forall f, phase_field_ok f -> f <> FPscale -> mA (addr (PV k f)) = mB (addr (PV k f))). { intros f Hf NE. apply EQ. simpl. auto. intros ip Q. congruence. }
  unfold load_phase, scale_ph. cbn [cp_a0 cp_win cp_icc cp_atoms cp_delta2 cp_delta1 cp_pscale cp_spd cp_stepcut cp_sratio cp_rcut]. f_equal.
  - apply functional_extensionality. intros i. destruct (Nat.ltb_spec i 3); auto. apply V; auto. discriminate.
  - apply functional_extensionality. intros i. destruct (Nat.ltb_spec i 3); auto. apply V; auto. discriminate.
  - apply load_atoms; auto. rewrite (nth_error_nth _ _ _ N). lia.
  - apply V. exact I. discriminate.
  - apply V. exact I. discriminate.
  - apply V. exact I. discriminate.
  - apply V. exact I. discriminate.
Qed.
Lemma load_data is d : (is < nset)%nat -> load_set addr mA is d = load_set addr mB is d.
Proof. intros H. unfold load_set. f_equal; apply EQ; auto; intros; discriminate. Qed.
End Load.

(** lattices *)
Lemma lattices ps : (forall p, In p ps -> exists de, phase_lattice p = Ok de) -> exists des, length des = length ps /\
  (forall i p de, nth_error ps i = Some p -> nth_error des i = Some de -> phase_lattice p = Ok de) /\
  forall x k acc, ofold (fun acc p => obind (phase_lattice p) (fun de => Ok (acc ++ [(p, de)]))) (rescale x k ps) acc = Ok (acc ++ combine (rescale x k ps) des).
Proof.
  induction ps as [|p ps IH]; intros H.
  - exists []. split; auto. split. intros [|i]; discriminate. intros x k acc. cbn. rewrite app_nil_r. reflexivity.
  - destruct (H p) as (de & E). left; auto. destruct IH as (des & L & A & B). { intros q I. apply H. right; auto. }
    exists (de :: des). split. simpl; auto. split.
    + intros [|i] q de' E1 E2. inversion E1; inversion E2; subst; auto. eapply A; eauto.
    + intros x k acc. cbn [rescale ofold]. replace (phase_lattice (scale_ph (x k) p)) with (phase_lattice p) by reflexivity. rewrite E. cbn [obind]. rewrite B. rewrite <- app_assoc. reflexivity.
Qed.
Lemma entries_scaled x : forall ps des sel k, entries (combine (rescale x k ps) des) sel = scaled x k (entries (combine ps des) sel).
Proof.
  induction ps as [|p ps IH]; intros des sel k; auto. destruct des as [|de des]; auto. destruct sel as [|o sel]; auto. cbn [rescale combine entries scaled].
  rewrite IH. f_equal. destruct o as [[gi gj]|]; reflexivity.
Qed.
Lemma entries_nth : forall ps des sel i, length des = length ps -> length sel = length ps -> nth_error (entries (combine ps des) sel) i =
  match nth_error ps i, nth_error des i, nth_error sel i with Some p, Some de, Some (Some (gi, gj)) => Some (Some (mkEnt p de gi gj)) | Some p, Some de, Some None => Some None | _, _, _ => None end.
Proof.
  induction ps as [|p ps IH]; intros [|de des] [|o sel] i; cbn [length combine entries]; intros L1 L2; try lia. destruct i; auto. destruct i as [|i]; cbn [nth_error]. destruct o as [[gi gj]|]; auto. apply IH; lia.
Qed.
Lemma entries_len : forall ps des sel, length des = length ps -> length sel = length ps -> length (entries (combine ps des) sel) = length ps.
Proof. induction ps as [|p ps IH]; intros [|de des] [|o sel]; cbn [length combine entries]; intros L1 L2; try lia. f_equal. apply IH; lia. Qed.

Lemma selected_nth : forall psel e, In e (selected_entries psel) -> exists i, nth_error psel i = Some (Some e).
Proof.
  induction psel as [|[e'|] r IH]; cbn [selected_entries]; intros e I. destruct I.
  - destruct I as [->|I]. exists 0%nat; auto. destruct (IH e I) as (i & E). exists (S i); auto.
  - destruct (IH e I) as (i & E). exists (S i); auto.
Qed.

(** fit_a * dvdp *)
Lemma concat_at {A} (m : nat) : forall (L : list (list A)) i c row, (forall r, In r L -> length r = m) -> nth_error L i = Some row -> (c < m)%nat ->
  nth_error (concat L) (i * m + c) = nth_error row c.
Proof.
  induction L as [|r L IH]; intros i c row H E B. destruct i; discriminate. pose proof (H r (or_introl eq_refl)) as LR. destruct i as [|i]; cbn [nth_error concat] in *.
  - inversion E; subst. cbn. apply nth_error_app1. lia.
  - rewrite nth_error_app2 by (rewrite LR; simpl; lia). rewrite LR. replace (S i * m + c - m)%nat with (i * m + c)%nat by (simpl; lia). apply IH; auto. intros r' I. apply H. right; auto.
Qed.
Lemma concat_len {A} (m : nat) : forall (L : list (list A)), (forall r, In r L -> length r = m) -> length (concat L) = (length L * m)%nat.
Proof. induction L as [|r L IH]; intros H; cbn [concat length]; auto. rewrite app_length, IH, (H r). simpl. lia. left; auto. intros r' I. apply H. right; auto. Qed.

Lemma fold_num (f : nat -> num) (g : nat -> R) : forall l x, (forall k, In k l -> f k = Some (g k)) -> fold_left (fun s k => nadd s (f k)) l (Some x) = Some (x + lsum g l).
Proof.
  induction l as [|a l IH]; intros x H; cbn [fold_left]. unfold lsum. simpl. f_equal. ring.
  rewrite (H a) by (left; auto). cbn [nadd]. rewrite IH. 2:{ intros k I. apply H. right; auto. } unfold lsum. simpl. f_equal. ring.
Qed.
Lemma product vref ly n A (dv : matrix R) : good_rows vref ly n A -> mwf dv -> mrows dv = length vref ->
  exists B, mx_mul (Some 0) nadd nmul (mkMx (length A) (length vref) (concat A)) (mkMx (mrows dv) (mcols dv) (map Some (mdata dv))) = Ok B /\
  forall i k a D, (i < n)%nat -> (k < mcols dv)%nat -> (forall c, (c < length vref)%nat -> nth c (nth i A []) None = Some (a c) /\ mx_get dv c k = Ok (D c)) ->
    mx_get B i k = Ok (Some (lsum (fun c => a c * D c) (seq 0 (length vref)))).
Proof.
  intros [LA GR] W MR. set (m := length vref) in *.
  assert (RL : forall r, In r A -> length r = m) by (intros r I; apply (GR r I)).
  set (a0 := mkMx (length A) m (concat A)). set (b0 := mkMx (mrows dv) (mcols dv) (map Some (mdata dv))).
  assert (Wa : mwf a0) by (unfold mwf; cbn; apply concat_len; auto). assert (Wb : mwf b0) by (unfold mwf; cbn; rewrite map_length; exact W).
  destruct (mx_mul_spec (Some 0) nadd nmul a0 b0 Wa Wb) as [_ X]. destruct X as (B & E & _ & _ & _ & G). { cbn. auto. }
  exists B. split; auto. intros i k a D Hi Hk H. rewrite (G i k) by (cbn; try lia; auto). f_equal. change (mcols a0) with m.
  rewrite <- (Rplus_0_l (lsum _ _)). apply (fold_num (fun c => nmul (ent (Some 0) a0 i c) (ent (Some 0) b0 c k)) (fun c => a c * D c)).
  intros c I. apply in_seq in I. destruct (H c) as [H1 H2]. lia. cbv beta. unfold ent.
  assert (NE : nth_error A i = Some (nth i A [])) by (apply nth_error_nth'; lia).
  assert (X1 : @mx_get (option R) a0 i c = Ok (Some (a c))).
  { apply mx_get_nth. cbn; lia. cbn; lia. transitivity (nth_error (nth i A []) c). exact (concat_at m A i c _ RL NE ltac:(lia)). rewrite <- H1. apply nth_error_nth'. rewrite (RL (nth i A [])). lia. eapply nth_error_In; eauto. }
  assert (X2 : @mx_get (option R) b0 c k = Ok (Some (D c))).
  { apply mx_get_nth. cbn; lia. exact Hk. cbn. apply map_nth_error. apply mx_get_inv in H2. tauto. }
  rewrite X1, X2. reflexivity.
Qed.
