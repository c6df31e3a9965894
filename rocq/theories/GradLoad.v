(** Phases and data sets when one variable that leaves the peaks in place changes. *)
From Coq Require Import List Arith ZArith Reals Bool Lia Lra FunctionalExtensionality.
From Verif Require Import Base RSum Util ParamModel ParserModel MathModel MathSpec MatrixModel ConModel MetricModel PdfModel PdfSpec LayoutModel LayoutSpec DerivModel DerivSpec TheoryModel TheorySpec ScaleSpec GradSpec.
Import ListNotations.
Local Open Scope R_scope.

Lemma list_ext {A} : forall l l' : list A, (forall i, nth_error l i = nth_error l' i) -> l = l'.
Proof.
  induction l as [|a l IH]; intros [|b l'] H; auto. specialize (H 0%nat); discriminate. specialize (H 0%nat); discriminate.
  f_equal. specialize (H 0%nat). cbn in H. congruence. apply IH. intros i. exact (H (S i)).
Qed.
Lemma on_nth_at {A} (h : A -> A) : forall l n i, nth_error (on_nth n h l) i = if (i =? n)%nat then option_map h (nth_error l i) else nth_error l i.
Proof.
  induction l as [|a l IH]; intros n i. destruct n, i; cbn; try reflexivity; destruct (_ =? _)%nat; reflexivity.
  destruct n as [|n], i as [|i]; cbn [on_nth nth_error Nat.eqb]; auto.
Qed.
Lemma numbered_at {A} (l : list A) i : nth_error (combine (seq 0 (length l)) l) i = option_map (fun a => (i, a)) (nth_error l i).
Proof.
  destruct (nth_error l i) as [a|] eqn:E.
  - assert (X : (i < length l)%nat) by (apply nth_error_Some; congruence). rewrite (nth_error_nth' _ (0%nat, a)) by (rewrite combine_length, seq_length; lia).
    rewrite combine_nth by (rewrite seq_length; auto). rewrite seq_nth by auto. rewrite (nth_error_nth _ _ _ E). reflexivity.
  - apply nth_error_None in E. cbn. apply nth_error_None. rewrite combine_length, seq_length. lia.
Qed.

Definition phases_set (v : rvar) (x : R) (ps : list cphase) : list cphase :=
  match v with PV ip f => on_nth ip (set_phase_field f x) ps | AV ip ia f => on_nth ip (set_phase_atom ia f x) ps | SV _ _ => ps end.
Lemma entries_on ip h : forall ps des sel, entries (combine (on_nth ip h ps) des) sel = on_nth ip (option_map (with_phase h)) (entries (combine ps des) sel).
Proof.
  intros ps. revert ip. induction ps as [|p ps IH]; intros ip des sel. destruct ip; reflexivity. destruct des as [|de des]. destruct ip; reflexivity. destruct sel as [|o sel]. destruct ip; reflexivity.
  destruct ip as [|ip]; cbn [on_nth combine entries]. f_equal. destruct o as [[gi gj]|]; reflexivity. f_equal. apply IH.
Qed.
Lemma entries_set v x ps des sel : entries (combine (phases_set v x ps) des) sel = phases_with v x (entries (combine ps des) sel).
Proof. destruct v as [ip f|ip ia f|k f]; cbn [phases_set phases_with]; try apply entries_on. reflexivity. Qed.
Lemma lattice_set v x ps des : peaks_fixed v -> Forall2 (fun q de => phase_lattice q = Ok de) ps des -> exists des', Forall2 (fun q de => phase_lattice q = Ok de) (phases_set v x ps) des'.
Proof.
  intros PF F. assert (G : forall ip h, (forall q, cp_a0 (h q) = cp_a0 q /\ cp_win (h q) = cp_win q) -> exists des', Forall2 (fun q de => phase_lattice q = Ok de) (on_nth ip h ps) des').
  { intros ip h H. revert ip. induction F as [|q de ps des E F IH]; intros ip. exists []. destruct ip; constructor. destruct ip as [|ip]; cbn [on_nth].
    - assert (X : exists de', phase_lattice (h q) = Ok de'). { unfold phase_lattice in *. destruct (H q) as [-> ->]. destruct (lattice (cp_a0 q) (cp_win q)); try discriminate E. cbn [obind]. eauto. }
      destruct X as (de' & X). exists (de' :: des). constructor; auto.
    - destruct (IH ip) as (des' & X). exists (de :: des'). constructor; auto. }
  destruct v as [ip f|ip ia f|k f]; cbn [phases_set]; eauto; apply G; intros q; destruct f; try destruct PF; auto.
Qed.
Lemma set_len v x ps : length (phases_set v x ps) = length ps.
Proof.
  assert (G : forall h (l : list cphase) ip, length (on_nth ip h l) = length l). { intros h. induction l as [|a l IH]; intros [|ip]; cbn; auto. }
  destruct v; cbn [phases_set]; auto.
Qed.
Lemma refresh_to : forall ps des' sel des, Forall2 (fun q de => phase_lattice q = Ok de) ps des' -> length des = length ps -> refresh (entries (combine ps des) sel) = entries (combine ps des') sel.
Proof.
  intros ps des' sel des F. revert sel des. induction F as [|q de ps des' E F IH]; intros sel des L. reflexivity. destruct des as [|de0 des]; [discriminate|]. destruct sel as [|o sel]. reflexivity. cbn [combine entries]. unfold refresh in *. cbn [map]. f_equal; auto.
  destruct o as [[gi gj]|]; auto. cbn. rewrite E. reflexivity.
Qed.
Lemma lattice_fold : forall ps des, Forall2 (fun q de => phase_lattice q = Ok de) ps des -> forall acc, ofold (fun acc p => obind (phase_lattice p) (fun de => Ok (acc ++ [(p, de)]))) ps acc = Ok (acc ++ combine ps des).
Proof.
  induction 1 as [|q de ps des E F IH]; intros acc; cbn [ofold combine]. rewrite app_nil_r. auto. rewrite E. cbn [obind]. rewrite IH, <- app_assoc. reflexivity.
Qed.
Lemma lattices_all ps : (forall p, In p ps -> exists de, phase_lattice p = Ok de) -> exists des, Forall2 (fun q de => phase_lattice q = Ok de) ps des.
Proof. induction ps as [|p ps IH]; intros H. exists []; auto. destruct (H p) as (de & E). left; auto. destruct IH as (des & F). intros q I. apply H. right; auto. exists (de :: des). auto. Qed.

Section Load.
Variable addr : rvar -> nat.
Variable ph : list cphase.
Variable nset : nat.
Notation natoms := (atoms_in ph).
Variables mA mB : nat -> R.
Variable v : rvar.
Hypothesis PF : peaks_fixed v.
Hypothesis EQ : forall w, exists_var natoms nset w -> w <> v -> mA (addr w) = mB (addr w).

Lemma load_set_at is d : (is < nset)%nat -> load_set addr mA is d = data_with is v (mA (addr v)) (load_set addr mB is d).
Proof.
  intros H. assert (E : forall f, SV is f <> v -> mA (addr (SV is f)) = mB (addr (SV is f))) by (intros f N; apply EQ; auto).
  destruct v as [ip f|ip ia f|k f]; cbn [data_with].
  - unfold load_set. rewrite !E by discriminate. reflexivity.
  - unfold load_set. rewrite !E by discriminate. reflexivity.
  - destruct (Nat.eqb_spec k is) as [->|NE].
    + unfold load_set. destruct f; try destruct PF; cbn [set_set_field cd_rmin cd_rfmin cd_rfmax cd_deltar cd_qmax cd_qdamp cd_qbroad cd_dscale cd_type]; rewrite ?(E FDscale), ?(E FQdamp), ?(E FQbroad) by discriminate; reflexivity.
    + unfold load_set. rewrite !E by congruence. reflexivity.
Qed.
Lemma natoms_at i p : nth_error ph i = Some p -> (i < length natoms)%nat /\ nth i natoms 0%nat = length (cp_atoms p).
Proof.
  intros E. unfold atoms_in. rewrite map_length. split. apply nth_error_Some; congruence. apply nth_error_nth. apply (map_nth_error (fun p => length (cp_atoms p)) _ _ E).
Qed.
Lemma load_atom_same i p ia a : nth_error ph i = Some p -> nth_error (cp_atoms p) ia = Some a -> (forall f, AV i ia f <> v) -> load_atom addr mA i (ia, a) = load_atom addr mB i (ia, a).
Proof.
  intros E1 E2 N. destruct (natoms_at i p E1) as [L1 L2]. assert (L3 : (ia < length (cp_atoms p))%nat) by (apply nth_error_Some; congruence).
  assert (V : forall f, atom_field_ok f -> mA (addr (AV i ia f)) = mB (addr (AV i ia f))). { intros f Hf. apply EQ; auto. cbn. repeat split; auto. lia. }
  unfold load_atom. f_equal.
  - apply functional_extensionality. intros k. destruct (Nat.ltb_spec k 3); auto.
  - apply functional_extensionality. intros k. destruct (Nat.ltb_spec k 6); auto.
  - apply V. exact I.
Qed.
Lemma load_atom_occ i p ia a : nth_error ph i = Some p -> nth_error (cp_atoms p) ia = Some a -> v = AV i ia FOcc -> load_atom addr mA i (ia, a) = set_atom_field FOcc (mA (addr v)) (load_atom addr mB i (ia, a)).
Proof.
  intros E1 E2 N. destruct (natoms_at i p E1) as [L1 L2]. assert (L3 : (ia < length (cp_atoms p))%nat) by (apply nth_error_Some; congruence).
  assert (V : forall f, atom_field_ok f -> f <> FOcc -> mA (addr (AV i ia f)) = mB (addr (AV i ia f))). { intros f Hf NF. apply EQ; auto. cbn. repeat split; auto. lia. congruence. }
  unfold load_atom. cbn [set_atom_field at_pos at_u at_occ at_sf]. rewrite N. f_equal.
  - apply functional_extensionality. intros k. destruct (Nat.ltb_spec k 3); auto. apply V; auto. discriminate.
  - apply functional_extensionality. intros k. destruct (Nat.ltb_spec k 6); auto. apply V; auto. discriminate.
Qed.
Lemma atoms_same i p : nth_error ph i = Some p -> (forall ia f, AV i ia f <> v) -> map (load_atom addr mA i) (combine (seq 0 (length (cp_atoms p))) (cp_atoms p)) = map (load_atom addr mB i) (combine (seq 0 (length (cp_atoms p))) (cp_atoms p)).
Proof.
  intros E N. apply list_ext. intros ia. rewrite !nth_error_map, numbered_at. destruct (nth_error (cp_atoms p) ia) as [a|] eqn:E2; cbn [option_map]; auto. f_equal. apply (load_atom_same i p); auto.
Qed.
Lemma load_phases_at : load_phases addr mA ph = phases_set v (mA (addr v)) (load_phases addr mB ph).
Proof.
  unfold load_phases. apply list_ext. intros i. rewrite nth_error_map, numbered_at.
  assert (SAME : forall p, nth_error ph i = Some p -> (forall f, PV i f <> v) -> (forall ia f, AV i ia f <> v) -> load_phase addr mA (i, p) = load_phase addr mB (i, p)).
  { intros p E N1 N2. destruct (natoms_at i p E) as [L1 L2]. assert (V : forall f, phase_field_ok f -> mA (addr (PV i f)) = mB (addr (PV i f))). { intros f Hf. apply EQ; auto. cbn. auto. }
    unfold load_phase. rewrite (atoms_same i p) by auto. f_equal; try (apply V; exact I).
    - apply functional_extensionality. intros k. destruct (Nat.ltb_spec k 3); auto.
    - apply functional_extensionality. intros k. destruct (Nat.ltb_spec k 3); auto. }
  assert (G : forall ip h, (forall p, nth_error ph i = Some p -> load_phase addr mA (i, p) = if (i =? ip)%nat then h (load_phase addr mB (i, p)) else load_phase addr mB (i, p)) ->
    option_map (load_phase addr mA) (option_map (fun a => (i, a)) (nth_error ph i)) = nth_error (on_nth ip h (map (load_phase addr mB) (combine (seq 0 (length ph)) ph))) i).
  { intros ip h H. rewrite on_nth_at, nth_error_map, numbered_at. destruct (nth_error ph i) as [p|] eqn:E; cbn [option_map]. rewrite (H p) by auto. destruct (i =? ip)%nat; reflexivity. destruct (i =? ip)%nat; reflexivity. }
  destruct (ex_intro (fun v' => v' = v) v eq_refl) as (v' & EV). pose proof PF as PF'. rewrite <- EV in PF'. replace (phases_set v) with (phases_set v') by congruence. destruct v' as [ip f|ip ia f|k f]; cbn [phases_set].
  - apply G. intros p E. destruct (Nat.eqb_spec i ip) as [->|NE]. 2:{ apply SAME; auto; intros; congruence. }
    destruct (natoms_at ip p E) as [L1 L2]. assert (V : forall f', phase_field_ok f' -> f' <> f -> mA (addr (PV ip f')) = mB (addr (PV ip f'))). { intros f' Hf N. apply EQ; auto. cbn. auto. congruence. }
    unfold load_phase. rewrite (atoms_same ip p) by (auto; intros; congruence). destruct f; try destruct PF'; cbn [set_phase_field cp_a0 cp_win cp_icc cp_atoms cp_delta2 cp_delta1 cp_pscale cp_spd cp_stepcut cp_sratio cp_rcut]; f_equal;
    try (apply V; [exact I|discriminate]); try (rewrite EV; reflexivity); apply functional_extensionality; intros k; destruct (Nat.ltb_spec k 3); auto; (apply V; [auto|discriminate]).
  - destruct f as [k|k|]; try destruct PF'. apply G. intros p E. destruct (Nat.eqb_spec i ip) as [->|NE]. 2:{ apply SAME; auto; intros; congruence. }
    destruct (natoms_at ip p E) as [L1 L2]. assert (V : forall f', phase_field_ok f' -> mA (addr (PV ip f')) = mB (addr (PV ip f'))). { intros f' Hf. apply EQ; auto. cbn. auto. congruence. }
    unfold load_phase, set_phase_atom. cbn [cp_a0 cp_win cp_icc cp_atoms cp_delta2 cp_delta1 cp_pscale cp_spd cp_stepcut cp_sratio cp_rcut]. f_equal;
    try (apply V; exact I); try (apply functional_extensionality; intros k; destruct (Nat.ltb_spec k 3); auto).
    apply list_ext. intros ja. rewrite on_nth_at, !nth_error_map, numbered_at. destruct (nth_error (cp_atoms p) ja) as [a|] eqn:Ea; cbn [option_map]. 2: destruct (ja =? ia)%nat; reflexivity.
    destruct (Nat.eqb_spec ja ia) as [->|NA]; cbn [option_map]; f_equal. apply (load_atom_occ ip p); auto. apply (load_atom_same ip p); auto. intros f. congruence.
  - rewrite nth_error_map, numbered_at. destruct (nth_error ph i) as [p|] eqn:E; cbn [option_map]; auto. f_equal. apply SAME; auto; intros; congruence.
Qed.
End Load.
