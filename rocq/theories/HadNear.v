(** Calculations next to one another in which only scales, diameters, occupancies and
    Q-damping differ. *)
From Coq Require Import List Arith ZArith Reals Bool Lia Lra FunctionalExtensionality.
From Verif Require Import Base RSum Util ParserDeriv ParserProof MathModel MathProof MetricModel MetricSpec PdfModel PdfSpec PdfSum PdfProof PdfFinal LayoutModel LayoutSpec LayoutProof DerivModel DerivSpec DerivCalc DerivFinal DerivOut TheoryModel TheorySpec ScaleLoad GradLoad GradFinal HadCalc HadPdf HadLoad HadAlike.
Import ListNotations.
Local Open Scope R_scope.

Lemma near_nonzero (f : R -> R) x0 y : derivable_pt_lim f x0 y -> f x0 <> 0 -> exists e, 0 < e /\ forall x, Rabs (x - x0) < e -> f x <> 0.
Proof.
  intros D N. pose proof (dcont _ _ _ D) as CT. destruct (CT (Rabs (f x0)) (Rabs_pos_lt _ N)) as (dl & PD & NE). exists dl. split; auto. intros x Hx Z.
  destruct (Req_dec x x0) as [->|Q]. contradiction. assert (X : Rabs (f x - f x0) < Rabs (f x0)) by (apply (NE x); split; [split; [exact I|auto]|exact Hx]). rewrite Z in X. replace (0 - f x0) with (- f x0) in X by ring. rewrite Rabs_Ropp in X. lra.
Qed.
Lemma least (P : R -> nat -> Prop) : (forall e e' k, e' <= e -> P e k -> P e' k) -> forall l, (forall k, In k l -> exists e, 0 < e /\ P e k) -> exists e, 0 < e /\ forall k, In k l -> P e k.
Proof.
  intros M. induction l as [|x l IH]; intros H. exists 1. split. lra. intros ? []. destruct (H x (or_introl eq_refl)) as (f & Pf & F). destruct (IH (fun y I => H y (or_intror I))) as (f' & Pf' & F').
  exists (Rmin f f'). split. apply Rmin_pos; auto. intros y [<-|I]. apply (M f); auto. apply Rmin_l. apply (M f'); auto. apply Rmin_r.
Qed.

Lemma atom_load addr m ip q i : atom_no (load_phase addr m (ip, q)) i = match nth_error (cp_atoms q) i with Some a => load_atom addr m ip (i, a) | None => no_atom end.
Proof.
  unfold atom_no. cbn [load_phase cp_atoms]. destruct (nth_error (cp_atoms q) i) as [a|] eqn:E.
  - apply nth_error_nth. rewrite nth_error_map, numbered_at, E. reflexivity.
  - apply nth_overflow. rewrite map_length, combine_length, seq_length. apply nth_error_None in E. lia.
Qed.
Lemma loaded_len addr m ph : length (load_phases addr m ph) = length ph.
Proof. unfold load_phases. rewrite map_length, combine_length, seq_length. lia. Qed.
Section Near.
Variables (addr : rvar -> nat) (ph : list cphase) (nset : nat).
Notation natoms := (atoms_in ph).
(** ** the same variables *)
Lemma load_ext mA mB : (forall w, exists_var natoms nset w -> mA (addr w) = mB (addr w)) -> load_phases addr mA ph = load_phases addr mB ph /\ forall is d, (is < nset)%nat -> load_set addr mA is d = load_set addr mB is d.
Proof.
  intros EQ. split.
  - apply list_ext. intros i. unfold load_phases. rewrite !nth_error_map, numbered_at. destruct (nth_error ph i) as [p|] eqn:E; auto. cbn [option_map]. f_equal. destruct (natoms_at ph i p E) as [L1 L2].
    assert (V : forall f, phase_field_ok f -> mA (addr (PV i f)) = mB (addr (PV i f))). { intros f Hf. apply EQ. split; auto. }
    unfold load_phase. f_equal; try (apply V; exact I); try (apply functional_extensionality; intros k; destruct (Nat.ltb_spec k 3); auto).
    apply list_ext. intros ia. rewrite !nth_error_map, numbered_at. destruct (nth_error (cp_atoms p) ia) as [a|] eqn:E2; auto. cbn [option_map]. f_equal.
    assert (L3 : (ia < length (cp_atoms p))%nat) by (apply nth_error_Some; congruence).
    assert (VA : forall f, atom_field_ok f -> mA (addr (AV i ia f)) = mB (addr (AV i ia f))). { intros f Hf. apply EQ. cbn. repeat split; auto. lia. }
    unfold load_atom. f_equal. apply functional_extensionality; intros k; destruct (Nat.ltb_spec k 3); auto. apply functional_extensionality; intros k; destruct (Nat.ltb_spec k 6); auto. apply VA. exact I.
  - intros is d H. unfold load_set. rewrite !(EQ (SV is _)) by exact H. reflexivity.
Qed.

Variable e : nat -> R.
Definition keeps (m : nat -> R) : Prop := forall w, exists_var natoms nset w -> ~ peaks_fixed w -> m (addr w) = e (addr w).
Lemma near_data m is d0 : keeps m -> (is < nset)%nat -> alike_data (load_set addr e is d0) (load_set addr m is d0).
Proof. intros K H. unfold alike_data, load_set. cbn. repeat split. apply (K (SV is FQbroad)); auto. Qed.
Lemma near_phase m ip q : keeps m -> nth_error ph ip = Some q -> alike_phase (load_phase addr e (ip, q)) (load_phase addr m (ip, q)).
Proof.
  intros K E. destruct (natoms_at ph ip q E) as [L1 L2].
  assert (V : forall f, phase_field_ok f -> ~ peaks_fixed (PV ip f) -> m (addr (PV ip f)) = e (addr (PV ip f))). { intros f Hf N. apply K; auto. split; auto. }
  assert (VA : forall ia f, (ia < length (cp_atoms q))%nat -> atom_field_ok f -> ~ peaks_fixed (AV ip ia f) -> m (addr (AV ip ia f)) = e (addr (AV ip ia f))). { intros ia f L Hf N. apply K; auto. cbn. repeat split; auto. lia. }
  assert (AP : forall i, at_pos (atom_no (load_phase addr m (ip, q)) i) = at_pos (atom_no (load_phase addr e (ip, q)) i)).
  { intros i. rewrite !atom_load. destruct (nth_error (cp_atoms q) i) as [a|] eqn:Ea; auto. cbn [load_atom at_pos]. apply functional_extensionality; intros k; destruct (Nat.ltb_spec k 3); auto. apply VA; auto. apply nth_error_Some; congruence. }
  assert (AU : forall i, at_u (atom_no (load_phase addr m (ip, q)) i) = at_u (atom_no (load_phase addr e (ip, q)) i)).
  { intros i. rewrite !atom_load. destruct (nth_error (cp_atoms q) i) as [a|] eqn:Ea; auto. cbn [load_atom at_u]. apply functional_extensionality; intros k; destruct (Nat.ltb_spec k 6); auto. apply VA; auto. apply nth_error_Some; congruence. }
  split; auto; cbn [load_phase cp_a0 cp_win cp_icc cp_delta2 cp_delta1 cp_stepcut cp_sratio cp_rcut]; auto; try (apply functional_extensionality; intros k; destruct (Nat.ltb_spec k 3); auto); try (apply V; [exact I|exact (fun H => H)]).
  - unfold PdfSpec.natoms. cbn. rewrite !map_length. reflexivity.
Qed.
Lemma phases_nth m ip : nth_error (load_phases addr m ph) ip = option_map (fun q => load_phase addr m (ip, q)) (nth_error ph ip).
Proof. unfold load_phases. rewrite nth_error_map, numbered_at. destruct (nth_error ph ip); reflexivity. Qed.
Lemma near_lattices m des : keeps m -> Forall2 (fun q de => phase_lattice q = Ok de) (load_phases addr e ph) des -> exists des', Forall2 (fun q de => phase_lattice q = Ok de) (load_phases addr m ph) des'.
Proof.
  intros K F. assert (Q : forall q, In q (load_phases addr m ph) -> exists de, phase_lattice q = Ok de).
  { intros q I. apply In_nth_error in I as (ip & I). rewrite phases_nth in I. destruct (nth_error ph ip) as [q0|] eqn:E; [|discriminate]. cbn [option_map] in I. inversion I; subst q.
    destruct (Forall2_nth_l _ _ _ ip (load_phase addr e (ip, q0)) F) as (de & _ & L). { rewrite phases_nth, E. reflexivity. }
    pose proof (near_phase m ip q0 K E) as A. destruct (lat_occ _ (load_phase addr m (ip, q0)) de (al_a0 _ _ A) (al_win _ _ A) L) as (de' & L' & _). exists de'. exact L'. }
  clear F. induction (load_phases addr m ph) as [|q l IH]. exists []. constructor. destruct (Q q (or_introl eq_refl)) as (de & L). destruct IH as (ds & F). intros; apply Q; right; auto. exists (de :: ds). constructor; auto.
Qed.
Lemma near_entries m des des' sel : keeps m -> length sel = length ph -> Forall2 (fun q de => phase_lattice q = Ok de) (load_phases addr e ph) des -> Forall2 (fun q de => phase_lattice q = Ok de) (load_phases addr m ph) des' ->
  alike_entries (entries (combine (load_phases addr e ph) des) sel) (entries (combine (load_phases addr m ph) des') sel).
Proof.
  intros K LS F F'. pose proof (Forall2_length _ _ _ F) as L. pose proof (Forall2_length _ _ _ F') as L'. rewrite loaded_len in L, L'. split.
  - rewrite !entries_len by (rewrite ?loaded_len; congruence). rewrite !loaded_len. reflexivity.
  - intros ip. rewrite !entries_nth by (rewrite ?loaded_len; congruence). rewrite !phases_nth. destruct (nth_error ph ip) as [q|] eqn:E; cbn [option_map]; auto.
    destruct (Forall2_nth_l _ _ _ ip (load_phase addr e (ip, q)) F) as (de & E1 & H1). { rewrite phases_nth, E. reflexivity. } destruct (Forall2_nth_l _ _ _ ip (load_phase addr m (ip, q)) F') as (de' & E2 & H2). { rewrite phases_nth, E. reflexivity. }
    rewrite E1, E2. destruct (nth_error sel ip) as [[[gi gj]|]|]; auto. cbn [en_ph en_igni en_ignj]. split; auto. apply near_phase; auto.
Qed.
Lemma fixed_des d m des des' sel W C g : length des = length ph -> length des' = length ph -> length sel = length ph ->
  fixed_pdf d (entries (combine (load_phases addr m ph) des) sel) W C g = fixed_pdf d (entries (combine (load_phases addr m ph) des') sel) W C g.
Proof.
  intros L L' LS. unfold fixed_pdf. rewrite !entries_len by (rewrite ?loaded_len; congruence). apply lsum_ext. intros ip I. apply in_seq in I. rewrite loaded_len in I. unfold phase_term.
  destruct (nth_error ph ip) as [q|] eqn:E. 2:{ apply nth_error_None in E. lia. } destruct (nth_error des ip) as [de|] eqn:E1. 2:{ apply nth_error_None in E1. lia. } destruct (nth_error des' ip) as [de'|] eqn:E2. 2:{ apply nth_error_None in E2. lia. }
  destruct (nth_error sel ip) as [o|] eqn:E3. 2:{ apply nth_error_None in E3. lia. }
  assert (X : forall des de, length des = length ph -> nth_error des ip = Some de -> nth ip (entries (combine (load_phases addr m ph) des) sel) None = match o with Some (gi, gj) => Some (mkEnt (load_phase addr m (ip, q)) de gi gj) | None => None end).
  { intros ds dx LL EE. apply nth_error_nth. rewrite entries_nth by (rewrite ?loaded_len; congruence). rewrite phases_nth, E, EE, E3. destruct o as [[gi gj]|]; reflexivity. }
  rewrite (X des de), (X des' de') by auto. destruct o as [[gi gj]|]; reflexivity.
Qed.

(** ** sane calculations *)
Lemma sane_like d d' p q : cd_type d' = cd_type d -> alike_phase p q -> (forall i, at_sf (atom_no q i) = at_sf (atom_no p i)) -> sane_phase d p -> occ_sum q <> 0 -> mean_sf d' q <> 0 -> sane_phase d' q.
Proof.
  intros TY A SF (PC & TN & IC & _ & _ & SZ & MS & SR) OZ MZ. unfold sane_phase. rewrite (al_a0 _ _ A), (al_win _ _ A), (al_icc _ _ A), (al_n _ _ A), (al_ratio _ _ A), TY. repeat (split; auto).
  - rewrite (rsum_ext _ _ (fun i => at_sf (atom_no p i) (cd_type d))); auto. intros i _. rewrite SF. reflexivity.
  - intros i j h Hi Hj. rewrite (k_msd _ _ A). apply MS; auto.
Qed.
Variable vs : list nat.
Hypothesis ND : NoDup vs.
Lemma near_sane ga x0 dg is d0 (sel : list (option ((nat -> bool) * (nat -> bool)))) : path vs e ga x0 dg -> (forall x, keeps (ga x)) ->
  (forall ip q gi gj, nth_error ph ip = Some q -> nth_error sel ip = Some (Some (gi, gj)) -> sane_phase (load_set addr e is d0) (load_phase addr e (ip, q))) ->
  exists eps, 0 < eps /\ forall x, Rabs (x - x0) < eps -> forall ip q gi gj, nth_error ph ip = Some q -> nth_error sel ip = Some (Some (gi, gj)) -> sane_phase (load_set addr (ga x) is d0) (load_phase addr (ga x) (ip, q)).
Proof.
  intros PA K SN. destruct (least (fun eps ip => forall x, Rabs (x - x0) < eps -> forall q gi gj, nth_error ph ip = Some q -> nth_error sel ip = Some (Some (gi, gj)) -> sane_phase (load_set addr (ga x) is d0) (load_phase addr (ga x) (ip, q)))) with (l := seq 0 (length ph)) as (eps & EP & H).
  - intros a b ip L H x Hx. apply H. lra.
  - intros ip _. destruct (nth_error ph ip) as [q|] eqn:E. 2:{ exists 1. split. lra. intros; discriminate. } destruct (nth_error sel ip) as [[[gi gj]|]|] eqn:E2; [|exists 1; split; [lra|intros; discriminate]..].
    specialize (SN ip q gi gj E E2). set (P := fun m => load_phase addr m (ip, q)). set (D := fun m => load_set addr m is d0).
    assert (AT : forall m i, atom_no (P m) i = match nth_error (cp_atoms q) i with Some a => load_atom addr m ip (i, a) | None => no_atom end) by (intros; apply atom_load).
    assert (KN : forall m, PdfSpec.natoms (P m) = PdfSpec.natoms (P e)) by (intros; unfold PdfSpec.natoms; cbn; rewrite !map_length; reflexivity).
    assert (KS : forall m i, at_sf (atom_no (P m) i) = at_sf (atom_no (P e) i)) by (intros; rewrite !AT; destruct (nth_error (cp_atoms q) i); reflexivity).
    assert (HO : forall i, Had vs e (fun m => at_occ (atom_no (P m) i))).
    { intros i. destruct (nth_error (cp_atoms q) i) as [a|] eqn:Ea. apply (had_ext _ _ (fun m => m (addr (AV ip i FOcc)))). intros m. rewrite AT, Ea. reflexivity. apply had_mem; auto. apply had_still. intros m _. rewrite !AT, Ea. reflexivity. }
    assert (H1 : Had vs e (fun m => occ_sum (P m))) by (apply (h_occ vs e P KN HO)).
    assert (H2 : Had vs e (fun m => mean_sf (D m) (P m))).
    { unfold mean_sf. apply had_div. apply SN. apply (h_rsum vs e P KN (fun m i => at_occ (atom_no (P m) i) * at_sf (atom_no (P m) i) (cd_type (D m)))). intros i. apply had_mult; auto. apply had_still. intros m _. rewrite (KS m). reflexivity. exact H1. }
    destruct H1 as (k1 & K1), H2 as (k2 & K2). pose proof (path_start _ _ _ _ _ PA) as ST.
    destruct (near_nonzero _ _ _ (K1 ga x0 dg PA)) as (e1 & P1 & N1). rewrite ST. apply SN.
    destruct (near_nonzero _ _ _ (K2 ga x0 dg PA)) as (e2 & P2 & N2). rewrite ST. apply SN.
    exists (Rmin e1 e2). split. apply Rmin_pos; auto. intros x Hx q' gi' gj' Q _. inversion Q; subst q'. pose proof (Rmin_l e1 e2). pose proof (Rmin_r e1 e2).
    apply (sane_like (D e) (D (ga x)) (P e) (P (ga x))); auto. apply near_phase; auto. apply N1; lra. apply N2; lra.
  - exists eps. split; auto. intros x Hx ip q gi gj E E2. apply (H ip) with (gi := gi) (gj := gj); auto. apply in_seq. assert (ip < length ph)%nat by (apply nth_error_Some; congruence). lia.
Qed.
End Near.
