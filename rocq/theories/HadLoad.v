(** The PDF as a function of the values in memory. *)
From Coq Require Import List Arith ZArith Reals Bool Lia Lra FunctionalExtensionality.
From Verif Require Import Base RSum Util MathModel ParserDeriv MathProof MetricModel MetricSpec PdfModel PdfSpec LayoutModel LayoutSpec DerivModel DerivSpec DerivCalc LsModel TheoryModel TheorySpec ScaleSpec ScaleLoad ScaleFinal GradSpec GradLoad GradFinal HadCalc HadPdf.
Import ListNotations.
Local Open Scope R_scope.

(** ** one variable changes *)
Section Load.
Variable addr : rvar -> nat.
Variable ph : list cphase.
Variable nset : nat.
Notation natoms := (atoms_in ph).
Variables mA mB : nat -> R.
Variable v : rvar.
Hypothesis EQ : forall w, exists_var natoms nset w -> w <> v -> mA (addr w) = mB (addr w).

Lemma any_set is d : (is < nset)%nat -> load_set addr mA is d = data_with is v (mA (addr v)) (load_set addr mB is d).
Proof.
  intros H. assert (E : forall f, SV is f <> v -> mA (addr (SV is f)) = mB (addr (SV is f))) by (intros f N; apply EQ; auto).
  destruct v as [ip f|ip ia f|k f]; cbn [data_with].
  - unfold load_set. rewrite !E by discriminate. reflexivity.
  - unfold load_set. rewrite !E by discriminate. reflexivity.
  - destruct (Nat.eqb_spec k is) as [->|NE].
    + unfold load_set. destruct f; cbn [set_set_field cd_rmin cd_rfmin cd_rfmax cd_deltar cd_qmax cd_qdamp cd_qbroad cd_dscale cd_type]; f_equal; apply E; discriminate.
    + unfold load_set. rewrite !E by congruence. reflexivity.
Qed.
Lemma any_atom_same i p ia a : nth_error ph i = Some p -> nth_error (cp_atoms p) ia = Some a -> (forall f, AV i ia f <> v) -> load_atom addr mA i (ia, a) = load_atom addr mB i (ia, a).
Proof.
  intros E1 E2 N. destruct (natoms_at ph i p E1) as [L1 L2]. assert (L3 : (ia < length (cp_atoms p))%nat) by (apply nth_error_Some; congruence).
  assert (V : forall f, atom_field_ok f -> mA (addr (AV i ia f)) = mB (addr (AV i ia f))). { intros f Hf. apply EQ; auto. cbn. repeat split; auto. lia. }
  unfold load_atom. f_equal.
  - apply functional_extensionality. intros k. destruct (Nat.ltb_spec k 3); auto.
  - apply functional_extensionality. intros k. destruct (Nat.ltb_spec k 6); auto.
  - apply V. exact I.
Qed.
Lemma any_atom i p ia a f : nth_error ph i = Some p -> nth_error (cp_atoms p) ia = Some a -> v = AV i ia f -> atom_field_ok f ->
  load_atom addr mA i (ia, a) = set_atom_field f (mA (addr v)) (load_atom addr mB i (ia, a)).
Proof.
  intros E1 E2 N OK. destruct (natoms_at ph i p E1) as [L1 L2]. assert (L3 : (ia < length (cp_atoms p))%nat) by (apply nth_error_Some; congruence).
  assert (V : forall f', atom_field_ok f' -> f' <> f -> mA (addr (AV i ia f')) = mB (addr (AV i ia f'))). { intros f' Hf NF. apply EQ; auto. cbn. repeat split; auto. lia. congruence. }
  unfold load_atom. destruct f as [kf|kf|]; cbn [set_atom_field at_pos at_u at_occ at_sf]; rewrite N; f_equal; try (apply V; [exact I|discriminate]);
  apply functional_extensionality; intros k; unfold set_v3; cbn in OK.
  - destruct (Nat.eqb_spec k kf) as [->|NK]. destruct (Nat.ltb_spec kf 3); [reflexivity|lia]. destruct (Nat.ltb_spec k 3); auto. apply V; auto. congruence.
  - destruct (Nat.ltb_spec k 6); auto. apply V; auto. discriminate.
  - destruct (Nat.ltb_spec k 3); auto. apply V; auto. discriminate.
  - destruct (Nat.eqb_spec k kf) as [->|NK]. destruct (Nat.ltb_spec kf 6); [reflexivity|lia]. destruct (Nat.ltb_spec k 6); auto. apply V; auto. congruence.
  - destruct (Nat.ltb_spec k 3); auto. apply V; auto. discriminate.
  - destruct (Nat.ltb_spec k 6); auto. apply V; auto. discriminate.
Qed.
Lemma any_atoms_same i p : nth_error ph i = Some p -> (forall ia f, AV i ia f <> v) -> map (load_atom addr mA i) (combine (seq 0 (length (cp_atoms p))) (cp_atoms p)) = map (load_atom addr mB i) (combine (seq 0 (length (cp_atoms p))) (cp_atoms p)).
Proof.
  intros E N. apply list_ext. intros ia. rewrite !nth_error_map, numbered_at. destruct (nth_error (cp_atoms p) ia) as [a|] eqn:E2; cbn [option_map]; auto. f_equal. apply (any_atom_same i p); auto.
Qed.
Hypothesis VE : exists_var natoms nset v.
Lemma any_phases : load_phases addr mA ph = phases_set v (mA (addr v)) (load_phases addr mB ph).
Proof.
  unfold load_phases. apply list_ext. intros i. rewrite nth_error_map, numbered_at.
  assert (SAME : forall p, nth_error ph i = Some p -> (forall f, PV i f <> v) -> (forall ia f, AV i ia f <> v) -> load_phase addr mA (i, p) = load_phase addr mB (i, p)).
  { intros p E N1 N2. destruct (natoms_at ph i p E) as [L1 L2]. assert (V : forall f, phase_field_ok f -> mA (addr (PV i f)) = mB (addr (PV i f))). { intros f Hf. apply EQ; auto. cbn. auto. }
    unfold load_phase. rewrite (any_atoms_same i p) by auto. f_equal; try (apply V; exact I).
    - apply functional_extensionality. intros k. destruct (Nat.ltb_spec k 3); auto.
    - apply functional_extensionality. intros k. destruct (Nat.ltb_spec k 3); auto. }
  assert (G : forall ip h, (forall p, nth_error ph i = Some p -> load_phase addr mA (i, p) = if (i =? ip)%nat then h (load_phase addr mB (i, p)) else load_phase addr mB (i, p)) ->
    option_map (load_phase addr mA) (option_map (fun a => (i, a)) (nth_error ph i)) = nth_error (on_nth ip h (map (load_phase addr mB) (combine (seq 0 (length ph)) ph))) i).
  { intros ip h H. rewrite on_nth_at, nth_error_map, numbered_at. destruct (nth_error ph i) as [p|] eqn:E; cbn [option_map]. rewrite (H p) by auto. destruct (i =? ip)%nat; reflexivity. destruct (i =? ip)%nat; reflexivity. }
  destruct (ex_intro (fun v' => v' = v) v eq_refl) as (v' & EV). pose proof VE as VE'. rewrite <- EV in VE'. replace (phases_set v) with (phases_set v') by congruence. destruct v' as [ip f|ip ia f|k f]; cbn [phases_set].
  - apply G. intros p E. destruct (Nat.eqb_spec i ip) as [->|NE]. 2:{ apply SAME; auto; intros; congruence. }
    destruct (natoms_at ph ip p E) as [L1 L2]. assert (V : forall f', phase_field_ok f' -> f' <> f -> mA (addr (PV ip f')) = mB (addr (PV ip f'))). { intros f' Hf N. apply EQ; auto. cbn. auto. congruence. }
    destruct VE' as [_ FO].
    unfold load_phase. rewrite (any_atoms_same ip p) by (auto; intros; congruence). destruct f as [kf|kf| | | | |]; cbn [set_phase_field cp_a0 cp_win cp_icc cp_atoms cp_delta2 cp_delta1 cp_pscale cp_spd cp_stepcut cp_sratio cp_rcut]; f_equal;
    try (apply V; [exact I|discriminate]); try (rewrite EV; reflexivity); apply functional_extensionality; intros k; unfold set_v3; cbn in FO;
    try (destruct (Nat.eqb_spec k kf) as [->|NK]; [destruct (Nat.ltb_spec kf 3); [rewrite EV; reflexivity|lia]|]); destruct (Nat.ltb_spec k 3); auto; (apply V; [auto|congruence]).
  - apply G. intros p E. destruct (Nat.eqb_spec i ip) as [->|NE]. 2:{ apply SAME; auto; intros; congruence. }
    destruct (natoms_at ph ip p E) as [L1 L2]. assert (V : forall f', phase_field_ok f' -> mA (addr (PV ip f')) = mB (addr (PV ip f'))). { intros f' Hf. apply EQ; auto. cbn. auto. congruence. }
    destruct VE' as (_ & _ & FO).
    unfold load_phase, set_phase_atom. cbn [cp_a0 cp_win cp_icc cp_atoms cp_delta2 cp_delta1 cp_pscale cp_spd cp_stepcut cp_sratio cp_rcut]. f_equal;
    try (apply V; exact I); try (apply functional_extensionality; intros k; destruct (Nat.ltb_spec k 3); auto).
    apply list_ext. intros ja. rewrite on_nth_at, !nth_error_map, numbered_at. destruct (nth_error (cp_atoms p) ja) as [a|] eqn:Ea; cbn [option_map]. 2: destruct (ja =? ia)%nat; reflexivity.
    destruct (Nat.eqb_spec ja ia) as [->|NA]; cbn [option_map]; f_equal. apply (any_atom ip p); auto. apply (any_atom_same ip p); auto. intros f'. congruence.
  - rewrite nth_error_map, numbered_at. destruct (nth_error ph i) as [p|] eqn:E; cbn [option_map]; auto. f_equal. apply SAME; auto; intros; congruence.
Qed.
End Load.

(** ** all variables *)
Section Point.
Variables (addr : rvar -> nat) (ph : list cphase) (nset : nat).
Notation natoms := (atoms_in ph).
Hypothesis AP : apart addr natoms nset.
Variable e : nat -> R.
Variable vs : list nat.
Hypothesis ND : NoDup vs.
Variables (is : nat) (d0 : cdata) (des : list cderived) (sel : list (option ((nat -> bool) * (nat -> bool)))) (W : nat -> list pairT) (C : nat -> pairT -> Z -> bool).
Hypothesis IS : (is < nset)%nat.
Let dt m := load_set addr m is d0.
Let psel m := entries (combine (load_phases addr m ph) des) sel.
Definition point_of (g : Z) (m : nat -> R) : R := fixed_pdf (load_set addr m is d0) (entries (combine (load_phases addr m ph) des) sel) W C g.
Hypothesis LD : length des = length ph.
Hypothesis LS : length sel = length ph.
Hypothesis GG : good_grid (dt e).
Hypothesis OO : off_origin (dt e).
Hypothesis SP : forall ip x, nth_error (psel e) ip = Some (Some x) -> sane_phase (dt e) (en_ph x).
Hypothesis RL : right_limits (dt e) (psel e) W C.
Hypothesis CL : forall a, In a vs -> exists v, exists_var natoms nset v /\ a = addr v /\ claimed is (dt e) (psel e) W v.

Lemma load_len m : length (load_phases addr m ph) = length ph.
Proof. unfold load_phases. rewrite map_length, combine_length, seq_length. lia. Qed.
Lemma psel_nth m ip : nth_error (psel m) ip = match nth_error ph ip, nth_error des ip, nth_error sel ip with
  Some q, Some de, Some (Some (gi, gj)) => Some (Some (mkEnt (load_phase addr m (ip, q)) de gi gj)) | Some q, Some de, Some None => Some None | _, _, _ => None end.
Proof.
  unfold psel. rewrite entries_nth by (rewrite load_len; auto). unfold load_phases. rewrite nth_error_map, numbered_at. destruct (nth_error ph ip); reflexivity.
Qed.
Lemma atom_at m ip q i : atom_no (load_phase addr m (ip, q)) i = match nth_error (cp_atoms q) i with Some a => load_atom addr m ip (i, a) | None => no_atom end.
Proof.
  unfold atom_no. cbn [load_phase cp_atoms]. destruct (nth_error (cp_atoms q) i) as [a|] eqn:E.
  - apply nth_error_nth. rewrite nth_error_map, numbered_at, E. reflexivity.
  - apply nth_overflow. rewrite map_length, combine_length, seq_length. apply nth_error_None in E. lia.
Qed.
(** a variable that is not among vs, or claimed *)
Lemma kept v : exists_var natoms nset v -> ~ claimed is (dt e) (psel e) W v -> Still vs e (fun m => m (addr v)).
Proof.
  intros V N m H. apply H. intros I. destruct (CL _ I) as (w & W1 & W2 & W3). assert (w = v) by (apply AP; auto). subst w. contradiction.
Qed.
Lemma grid_pos g lo hi f1 f2 : point_ranges (dt e) lo hi f1 f2 -> (lo <= g)%Z -> 0 < grid (dt e) g.
Proof.
  intros ((N1 & N2) & _ & _ & _ & (L0 & _) & _) L. destruct GG as (P & R & _). unfold grid in *. assert (IZR lo <= IZR g) by (apply IZR_le; auto). assert (0 <= IZR lo) by (apply IZR_le; auto). destruct OO as [O|[O1 O2]]; nra.
Qed.

Lemma had_point g : 0 < grid (dt e) g -> Had vs e (point_of g).
Proof.
  intros RP. apply (had_ext _ _ (fun m => lsum (phase_term (dt m) (psel m) W C g) (seq 0 (length ph)))).
  { intros m. unfold point_of, fixed_pdf. rewrite entries_len by (rewrite load_len; auto). rewrite load_len. reflexivity. }
  apply (had_lsum vs e (seq 0 (length ph)) (fun ip m => phase_term (dt m) (psel m) W C g ip)). intros ip _.
  destruct (nth_error ph ip) as [q|] eqn:E1.
  2:{ apply had_still. intros m _. unfold phase_term. assert (Z : forall m, nth ip (psel m) None = None). { intros m'. apply nth_overflow. unfold psel. rewrite entries_len by (rewrite load_len; auto). rewrite load_len. apply nth_error_None; auto. } rewrite !Z. reflexivity. }
  destruct (nth_error des ip) as [de|] eqn:E2. 2:{ apply nth_error_None in E2. assert (ip < length ph)%nat by (apply nth_error_Some; congruence). lia. }
  destruct (nth_error sel ip) as [o|] eqn:E3. 2:{ apply nth_error_None in E3. assert (ip < length ph)%nat by (apply nth_error_Some; congruence). lia. }
  destruct o as [[gi gj]|].
  2:{ apply had_still. intros m _. unfold phase_term. assert (Z : forall m, nth ip (psel m) None = None). { intros m'. apply nth_error_nth. rewrite psel_nth, E1, E2, E3. reflexivity. } rewrite !Z. reflexivity. }
  set (P := fun m => load_phase addr m (ip, q)).
  assert (NT : forall m, nth_error (psel m) ip = Some (Some (mkEnt (P m) de gi gj))). { intros m. rewrite psel_nth, E1, E2, E3. reflexivity. }
  apply (had_ext _ _ (fun m => cd_dscale (dt m) * cp_pscale (P m) * fixed_phase (dt m) (mkEnt (P m) de gi gj) (W ip) (C ip) g)).
  { intros m. unfold phase_term. rewrite (nth_error_nth _ _ _ (NT m)). reflexivity. }
  destruct (natoms_at ph ip q E1) as [L1 L2].
  assert (PE : forall f, phase_field_ok f -> exists_var natoms nset (PV ip f)) by (intros; split; auto).
  assert (AE : forall ia f, (ia < length (cp_atoms q))%nat -> atom_field_ok f -> exists_var natoms nset (AV ip ia f)) by (intros; cbn; repeat split; auto; lia).
  assert (HM : forall a, Had vs e (fun m => m a)) by (intros; apply had_mem; auto).
  destruct (RL ip _ (NT e)) as ((_ & PL & _) & CT). cbn [en_ph] in CT.
  assert (HA : forall F : catom -> R, (forall i a, nth_error (cp_atoms q) i = Some a -> Had vs e (fun m => F (load_atom addr m ip (i, a)))) -> forall i, Had vs e (fun m => F (atom_no (P m) i))).
  { intros F H i. destruct (nth_error (cp_atoms q) i) as [a|] eqn:Ea.
    - apply (had_ext _ _ (fun m => F (load_atom addr m ip (i, a)))); auto. intros m. unfold P. rewrite atom_at, Ea. reflexivity.
    - apply had_still. intros m _. unfold P. rewrite !atom_at, Ea. reflexivity. }
  apply (h_phase vs e P dt gi gj (W ip) (C ip) g); try reflexivity.
  - unfold natoms. intros m. cbn. rewrite !map_length. reflexivity.
  - intros m i. unfold P. rewrite !atom_at. destruct (nth_error (cp_atoms q) i); reflexivity.
  - intros k. unfold P. cbn [load_phase load_atom cp_a0 cp_win at_pos at_u at_occ]. destruct (k <? 3)%nat. apply HM. apply had_const.
  - intros k. unfold P. cbn [load_phase load_atom cp_a0 cp_win at_pos at_u at_occ]. destruct (k <? 3)%nat. apply HM. apply had_const.
  - intros i k. apply (HA (fun a => at_pos a k)). intros i' a _. cbn [load_phase load_atom cp_a0 cp_win at_pos at_u at_occ]. destruct (k <? 3)%nat. apply HM. apply had_const.
  - intros i k. apply (HA (fun a => at_u a k)). intros i' a _. cbn [load_phase load_atom cp_a0 cp_win at_pos at_u at_occ]. destruct (k <? 6)%nat. apply HM. apply had_const.
  - intros i. apply (HA at_occ). intros i' a _. cbn. apply HM.
  - apply HM.
  - apply HM.
  - apply HM.
  - apply HM.
  - apply HM.
  - apply HM.
  - apply HM.
  - apply HM.
  - intros Z. apply (kept (PV ip FSpd)). apply PE. exact I. cbn [claimed]. intros X. exact (X _ (NT e) Z).
  - intros i j t IN EL.
    assert (NF : forall X, right_angles (P e) /\ off_rcut (P e) (W ip) -> X). { intros X (_ & OF). exfalso. exact (OF i j t IN EL). }
    assert (SA : forall k, Still vs e (fun m => cp_a0 (P m) k)).
    { intros k. unfold P. cbn [load_phase load_atom cp_a0 cp_win at_pos at_u at_occ]. destruct (Nat.ltb_spec k 3). 2: intros m _; reflexivity. apply (kept (PV ip (FA0 k))). apply PE; auto. cbn [claimed]. intros X. apply NF. exact (X _ (NT e)). }
    assert (SW : forall k, Still vs e (fun m => cp_win (P m) k)).
    { intros k. unfold P. cbn [load_phase load_atom cp_a0 cp_win at_pos at_u at_occ]. destruct (Nat.ltb_spec k 3). 2: intros m _; reflexivity. apply (kept (PV ip (FWin k))). apply PE; auto. cbn [claimed]. intros X. exact (X _ (NT e)). }
    assert (SP' : forall i k, Still vs e (fun m => at_pos (atom_no (P m) i) k)).
    { intros i' k m H. unfold P. rewrite !atom_at. destruct (nth_error (cp_atoms q) i') as [a|] eqn:Ea; auto. cbn [load_phase load_atom cp_a0 cp_win at_pos at_u at_occ]. destruct (Nat.ltb_spec k 3); auto.
      apply (kept (AV ip i' (FPos k))); auto. apply AE; auto. apply nth_error_Some. congruence. cbn [claimed]. intros X. apply NF. exact (X _ (NT e)). }
    intros m H. assert (A1 : cp_a0 (P m) = cp_a0 (P e)) by (apply functional_extensionality; intros k; apply SA; auto). assert (A2 : cp_win (P m) = cp_win (P e)) by (apply functional_extensionality; intros k; apply SW; auto).
    assert (A3 : forall i, at_pos (atom_no (P m) i) = at_pos (atom_no (P e) i)) by (intros i'; apply functional_extensionality; intros k; apply SP'; auto).
    unfold length_of. rewrite A1, A2. destruct t as [[ta tb] tc]. unfold sep. rewrite !A3. reflexivity.
  - exact (SP ip _ (NT e)).
  - exact RP.
  - intros i j t IN. specialize (PL _ IN). cbn [is_pair en_ph] in PL. destruct PL as (_ & _ & _ & (PL & _)). lra.
  - intros i j t HC. apply CT. exact HC.
Qed.

(** one variable at a time *)
Lemma point_var g v x : exists_var natoms nset v -> point_of g (fun b => if (b =? addr v)%nat then x else e b) = fixed_pdf (data_with is v x (dt e)) (phases_with v x (psel e)) W C g.
Proof.
  intros V. unfold point_of. set (mA := fun b => if (b =? addr v)%nat then x else e b).
  assert (EQ : forall w, exists_var natoms nset w -> w <> v -> mA (addr w) = e (addr w)). { intros w W' NE. unfold mA. destruct (Nat.eqb_spec (addr w) (addr v)) as [E|]; auto. exfalso. apply NE. apply AP; auto. }
  assert (EV : mA (addr v) = x) by (unfold mA; rewrite Nat.eqb_refl; auto).
  rewrite (any_set addr ph nset mA e v EQ is d0 IS), (any_phases addr ph nset mA e v EQ V), EV, entries_set. reflexivity.
Qed.
Lemma value_of v : exists_var natoms nset v -> value_is is v (dt e) (psel e) (e (addr v)).
Proof.
  intros V. assert (PN : forall ip x, nth_error (psel e) ip = Some (Some x) -> exists q, nth_error ph ip = Some q /\ en_ph x = load_phase addr e (ip, q)).
  { intros ip x H. rewrite psel_nth in H. destruct (nth_error ph ip) as [q|]; [|discriminate]. destruct (nth_error des ip); [|discriminate]. destruct (nth_error sel ip) as [[[gi gj]|]|]; try discriminate. inversion H; subst x. exists q. auto. }
  destruct v as [ip f|ip ia f|k f]; cbn [value_is].
  - intros x H. destruct (PN ip x H) as (q & Q & ->). destruct V as [_ FO]. destruct f as [k|k| | | | |]; cbn [phase_value load_phase cp_a0 cp_win cp_delta2 cp_delta1 cp_pscale cp_spd cp_sratio]; auto; cbn in FO; destruct (Nat.ltb_spec k 3); auto; lia.
  - intros x H. destruct (PN ip x H) as (q & Q & ->). destruct V as (V1 & V2 & FO). rewrite atom_at. destruct (natoms_at ph ip q Q) as [_ L2]. 
    destruct (nth_error (cp_atoms q) ia) as [a|] eqn:Ea. 2:{ apply nth_error_None in Ea. lia. } destruct f as [k|k|]; cbn [atom_value load_atom at_pos at_u at_occ]; auto; cbn in FO. destruct (Nat.ltb_spec k 3); auto; lia. destruct (Nat.ltb_spec k 6); auto; lia.
  - intros ->. destruct f; reflexivity.
Qed.
End Point.
