(** Proofs about blen and bang: refusals, indices of elements. *)
From Coq Require Import Ascii String.
From Coq Require Import List Arith ZArith Reals Bool Lia Lra Sorted.
From Verif Require Import Base ParserModel DataModel DataSpec DataProof FmtModel FmtSpec BlenModel BlenSpec BlenProof.
From Verif Require SphereModel PyModel SaveModel ReportModel ReportSpec PdfModel PdfSpec PdfGeo BondModel BondSpec BondProof BondNear BondAngle BondFinal BindModel.
Import ListNotations.
Local Open Scope R_scope.

(** * errors of the engine *)
Definition only_value {A} (o : outcome A) : Prop := forall e, o = Err e -> e = ErrValue.
Lemma ov_ok {A} (a : A) : only_value (Ok a). Proof. intros e H. discriminate H. Qed.
Lemma ov_val {A} : only_value (@Err A ErrValue). Proof. intros e [= <-]. auto. Qed.
Lemma ov_fuel {A} : only_value (@NoFuel A). Proof. intros e H. discriminate H. Qed.
Lemma ov_bind {A B} (o : outcome A) (f : A -> outcome B) : only_value o -> (forall a, only_value (f a)) -> only_value (obind o f).
Proof. intros O F. destruct o as [a|e| |]; cbn [obind]. apply F. intros e' [= <-]. apply O. auto. intros e H; discriminate H. intros e H; discriminate H. Qed.
Lemma ov_map {A B} (o : outcome A) (f : A -> B) : only_value o -> only_value (omap f o).
Proof. intros O. destruct o as [a|e| |]; cbn [omap]; intros e' H; inversion H; subst. apply O. auto. Qed.
#[local] Hint Resolve ov_ok ov_val ov_fuel : core.
Lemma ov_vals f x c : only_value (BondModel.loop_vals f x c).
Proof. revert x. induction f as [|f IH]; intros x; cbn [BondModel.loop_vals]; auto. destruct (Rlt_dec x c); auto. apply ov_map, IH. Qed.
Lemma ov_near f b x : only_value (BondModel.make_nearest f b x).
Proof.
  unfold BondModel.make_nearest. destruct (_ || _)%bool; auto. apply ov_bind. apply ov_vals. intros ?. apply ov_bind. apply ov_vals. intros ?. apply ov_bind. apply ov_vals. auto.
Qed.
Lemma ov_next_n f k s : only_value (SphereModel.next_n f k s).
Proof. revert s. induction f as [|f IH]; intros s; cbn [SphereModel.next_n]; auto. destruct (Z.ltb _ _); auto. destruct (SphereModel.finished _); auto. Qed.
Lemma ov_next_o f k s : only_value (SphereModel.next_o f k s).
Proof.
  revert s. induction f as [|f IH]; intros s; cbn [SphereModel.next_o]; auto. destruct (Z.ltb _ _); auto. destruct (negb _); [destruct (SphereModel.finished _); auto|].
  apply ov_bind. apply ov_next_n. intros s'. destruct (SphereModel.finished s'); auto.
Qed.
Lemma ov_visit f k s : only_value (SphereModel.visit f k s).
Proof.
  revert s. induction f as [|f IH]; intros s; cbn [SphereModel.visit]; auto. apply ov_bind. apply ov_next_o. intros s'. destruct (SphereModel.finished s'); auto. apply ov_map, IH.
Qed.
Lemma ov_sel b q : only_value (BondModel.select_atoms b q).
Proof. unfold BondModel.select_atoms. destruct (text_eqb _ _); auto. destruct (ScatModel.pt_lookup _ _); auto. Qed.
Lemma ov_atoms f b i j : only_value (BondModel.bond_length_atoms f b i j).
Proof. unfold BondModel.bond_length_atoms. destruct (_ || _)%bool; auto. apply ov_bind; auto. apply ov_near. Qed.
Lemma ov_angle f b i j k : only_value (BondModel.bond_angle f b i j k).
Proof. unfold BondModel.bond_angle. destruct (_ || _)%bool; auto. destruct (_ || _)%bool; auto. apply ov_bind. apply ov_near. intros x. apply ov_bind; auto. apply ov_near. Qed.
Lemma ov_types f b p q lo hi : only_value (BondModel.bond_length_types f b p q lo hi).
Proof. unfold BondModel.bond_length_types. apply ov_bind. apply ov_sel. intros ?. apply ov_bind. apply ov_sel. intros ?. apply ov_bind; auto. apply ov_visit. Qed.
(** no line is printed by a call that raises *)
Definition proper_end (c : option BondModel.bphase) (p : printed) : Prop :=
  forall x, snd p = BRaised x -> fst p = [] /\ (x = BEng BindModel.XValue /\ c <> None \/ x = BEng BindModel.XUnassigned /\ c = None \/ x = BType \/ x = BOverflow).
Lemma pe_call {A} (c : option BondModel.bphase) (g : BondModel.bphase -> outcome A) k :
  (forall b, only_value (g b)) -> (forall b a, c = Some b -> g b = Ok a -> proper_end c (k a)) ->
  proper_end c (call (BindModel.catching BindModel.c_value_unassigned (BondModel.on_current g c)) k).
Proof.
  intros O K. destruct c as [b|]; cbn [BondModel.on_current].
  - specialize (O b). destruct (g b) as [a|e| |] eqn:E; cbn [BindModel.catching call PyModel.from_ext].
    + eapply K; eauto.
    + rewrite (O e eq_refl). cbn. intros x [= <-]. split; auto. left. split; [auto|discriminate].
    + intros x H; discriminate H.
    + intros x H; discriminate H.
  - cbn. intros x [= <-]. auto.
Qed.
Lemma pe_need {A} c (x : bx + A) k : (forall e, x = inl e -> e = BType \/ e = BOverflow) -> (forall a, proper_end c (k a)) -> proper_end c (need x k).
Proof. intros X K. destruct x as [e|a]; cbn [need]; auto. intros y [= <-]. split; [reflexivity|]. destruct (X e eq_refl); auto. Qed.
Lemma e_int a e : as_int a = inl e -> e = BType \/ e = BOverflow.
Proof. destruct a as [t|n|x]; cbn; [|destruct (PyModel.c_int n)|]; intros [= <-]; auto. Qed.
Lemma e_real a e : as_real a = inl e -> e = BType \/ e = BOverflow.
Proof. destruct a; cbn; intros [= <-]; auto. Qed.
Lemma e_text a e : as_text a = inl e -> e = BType \/ e = BOverflow.
Proof. destruct a; cbn; intros [= <-]; auto. Qed.
Lemma pe_done c l : proper_end c (l, BDone). Proof. intros x H; discriminate H. Qed.
Lemma good_number b i : BondModel.bad_number b i = false -> exists k, (k < natoms b)%nat /\ i = (Z.of_nat k + 1)%Z.
Proof.
  unfold BondModel.bad_number, natoms. intros H. apply orb_false_iff in H as [H1 H2]. apply Z.ltb_ge in H1. apply Z.ltb_ge in H2. exists (Z.to_nat (i - 1)). lia.
Qed.
Lemma atoms_numbers f b i j r : BondModel.bond_length_atoms f b i j = Ok r -> exists k l, (k < natoms b)%nat /\ (l < natoms b)%nat /\ i = (Z.of_nat k + 1)%Z /\ j = (Z.of_nat l + 1)%Z.
Proof.
  unfold BondModel.bond_length_atoms. destruct (_ || _)%bool eqn:B; [discriminate|]. apply orb_false_iff in B as [B1 B2].
  destruct (good_number _ _ B1) as (k & ? & ?). destruct (good_number _ _ B2) as (l & ? & ?). intros _. exists k, l. auto.
Qed.
Lemma angle_numbers f b i j k r : BondModel.bond_angle f b i j k = Ok r -> exists x y z, (x < natoms b)%nat /\ (y < natoms b)%nat /\ (z < natoms b)%nat /\
  i = (Z.of_nat x + 1)%Z /\ j = (Z.of_nat y + 1)%Z /\ k = (Z.of_nat z + 1)%Z.
Proof.
  unfold BondModel.bond_angle. destruct (BondModel.bad_number b i || BondModel.bad_number b j || BondModel.bad_number b k)%bool eqn:B; [discriminate|].
  apply orb_false_iff in B as [B B3]. apply orb_false_iff in B as [B1 B2].
  destruct (good_number _ _ B1) as (x & ? & ?). destruct (good_number _ _ B2) as (y & ? & ?). destruct (good_number _ _ B3) as (z & ? & ?). intros _. exists x, y, z. auto 10.
Qed.
Lemma blen_atoms_end f c a1 a2 : proper_end c (blen_atoms f c a1 a2).
Proof.
  unfold blen_atoms. apply pe_need. apply e_int. intros i. apply pe_need. apply e_int. intros j. unfold BindModel.b_bond_length_atoms.
  apply pe_call. intros b. apply ov_atoms. intros b r -> E. cbn [call PyModel.from_ext get_atoms].
  destruct (atoms_numbers _ _ _ _ _ E) as (k & l & Lk & Ll & -> & ->). rewrite map_length, syms_len.
  destruct (Z.leb_spec 0 (Z.min (Z.of_nat k + 1) (Z.of_nat l + 1) - 1)); [|lia].
  destruct (Z.ltb_spec (Z.max (Z.of_nat k + 1) (Z.of_nat l + 1) - 1) (Z.of_nat (natoms b))); [|lia]. cbn [andb].
  replace (Z.of_nat k + 1 - 1)%Z with (Z.of_nat k) by lia. replace (Z.of_nat l + 1 - 1)%Z with (Z.of_nat l) by lia. rewrite !up_at by auto. apply pe_done.
Qed.
Lemma blen_types_end f c a1 a2 a3 a4 : proper_end c (blen_types f c a1 a2 a3 a4).
Proof.
  unfold blen_types. destruct c as [b|]; [|intros x [= <-]; cbn; auto]. cbn [get_atom_types call PyModel.from_ext].
  destruct (named _ a1) as [b1|]; [|apply pe_done]. destruct (named _ a2) as [b2|]; [|apply pe_done].
  apply pe_need. apply e_text. intros s1. apply pe_need. apply e_text. intros s2. apply pe_need. apply e_real. intros lo. apply pe_need. apply e_real. intros hi.
  unfold BindModel.b_bond_length_types. apply pe_call. intros b'. apply ov_types. intros b' rv [= <-] E. cbn [call PyModel.from_ext get_atoms].
  pose proof (lines_done b rv (fun pd I => types_in _ _ _ _ _ _ _ _ E I)) as L. destruct (bond_lines _ rv) as [t e]. cbn in L. subst e. apply pe_done.
Qed.
Lemma blen_end f c args : proper_end c (blen f c args).
Proof.
  assert (T : proper_end c ([], BRaised BType)). { intros x [= <-]. auto. }
  destruct args as [|a1 [|a2 [|a3 [|a4 [|a5 r]]]]]; try exact T. apply blen_atoms_end. apply blen_types_end.
Qed.
Lemma bang_end f c a1 a2 a3 : proper_end c (bang f c a1 a2 a3).
Proof.
  unfold bang. apply pe_need. apply e_int. intros i. apply pe_need. apply e_int. intros j. apply pe_need. apply e_int. intros k. unfold BindModel.b_bond_angle.
  apply pe_call. intros b. apply ov_angle. intros b r -> E. cbn [call PyModel.from_ext get_atoms].
  destruct (angle_numbers _ _ _ _ _ _ E) as (x & y & z & Lx & Ly & Lz & -> & -> & ->).
  replace (Z.of_nat x + 1 - 1)%Z with (Z.of_nat x) by lia. replace (Z.of_nat y + 1 - 1)%Z with (Z.of_nat y) by lia. replace (Z.of_nat z + 1 - 1)%Z with (Z.of_nat z) by lia. rewrite !up_at by auto. apply pe_done.
Qed.

(** * refusals *)
Lemma no_phase f i j k q1 q2 a3 a4 : PyModel.c_int i = true -> PyModel.c_int j = true -> PyModel.c_int k = true ->
  blen f None [AInt i; AInt j] = ([], BRaised (BEng BindModel.XUnassigned)) /\
  blen f None [q1; q2; a3; a4] = ([], BRaised (BEng BindModel.XUnassigned)) /\
  bang f None (AInt i) (AInt j) (AInt k) = ([], BRaised (BEng BindModel.XUnassigned)).
Proof. intros I J K. unfold blen, blen_atoms, blen_types, bang. cbn [as_int]. rewrite I, J, K. repeat split. Qed.
Lemma bad_atoms f b i j : PyModel.c_int i = true -> PyModel.c_int j = true ->
  (forall k, ~ BondSpec.number (BondModel.bp_ph b) i k) \/ (forall k, ~ BondSpec.number (BondModel.bp_ph b) j k) ->
  blen f (Some b) [AInt i; AInt j] = ([], BRaised (BEng BindModel.XValue)).
Proof.
  intros I J H. unfold blen, blen_atoms. cbn [as_int]. rewrite I, J. cbn [need]. unfold BindModel.b_bond_length_atoms. cbn [BondModel.on_current]. rewrite BondNear.length_bad by auto. reflexivity.
Qed.
Lemma bad_types f b q1 q2 a3 a4 lo hi : as_real a3 = inr lo -> as_real a4 = inr hi -> ~ BondSpec.known q1 \/ ~ BondSpec.known q2 ->
  blen f (Some b) [AText q1; AText q2; a3; a4] = ([], BRaised (BEng BindModel.XValue)).
Proof.
  intros E3 E4 H. unfold blen, blen_types. cbn [get_atom_types call PyModel.from_ext named as_text need]. rewrite E3, E4. cbn [need].
  unfold BindModel.b_bond_length_types. cbn [BondModel.on_current]. rewrite BondProof.types_unknown by auto. reflexivity.
Qed.
Lemma bad_angle f b i j k : PyModel.c_int i = true -> PyModel.c_int j = true -> PyModel.c_int k = true ->
  (forall n, ~ BondSpec.number (BondModel.bp_ph b) i n) \/ (forall n, ~ BondSpec.number (BondModel.bp_ph b) j n) \/ (forall n, ~ BondSpec.number (BondModel.bp_ph b) k n) \/ i = j \/ i = k \/ j = k ->
  bang f (Some b) (AInt i) (AInt j) (AInt k) = ([], BRaised (BEng BindModel.XValue)).
Proof.
  intros I J K H. unfold bang. cbn [as_int]. rewrite I, J, K. cbn [need]. unfold BindModel.b_bond_angle. cbn [BondModel.on_current]. rewrite BondAngle.angle_bad by auto. reflexivity.
Qed.
Lemma bad_count f c args : length args <> 2%nat -> length args <> 4%nat -> blen f c args = ([], BRaised BType).
Proof. intros A B. destruct args as [|a1 [|a2 [|a3 [|a4 [|a5 r]]]]]; cbn in A, B; try lia; reflexivity. Qed.

(** an argument that is no integer, or too large for a C int *)
Definition no_int (a : arg) (x : bx) : Prop :=
  match a with AInt n => x = BOverflow /\ ~ (-2147483648 <= n <= 2147483647)%Z | _ => x = BType end.
Lemma no_int_as a x : no_int a x -> as_int a = inl x.
Proof.
  destruct a as [t|n|r]; cbn [no_int as_int]; try (intros ->; reflexivity). intros [-> H]. destruct (PyModel.c_int n) eqn:E; auto. exfalso. apply H.
  unfold PyModel.c_int in E. apply andb_true_iff in E as [E1 E2]. apply Z.leb_le in E1. apply Z.leb_le in E2. lia.
Qed.
Lemma c_int_as i : (-2147483648 <= i <= 2147483647)%Z -> as_int (AInt i) = inr i.
Proof. intros H. cbn [as_int]. replace (PyModel.c_int i) with true; auto. symmetry. unfold PyModel.c_int. apply andb_true_iff. split; apply Z.leb_le; lia. Qed.
Lemma no_int_refused f c a x b d i j : no_int a x -> (-2147483648 <= i <= 2147483647)%Z -> (-2147483648 <= j <= 2147483647)%Z ->
  blen f c [a; b] = ([], BRaised x) /\ blen f c [AInt i; a] = ([], BRaised x) /\
  bang f c a b d = ([], BRaised x) /\ bang f c (AInt i) a d = ([], BRaised x) /\ bang f c (AInt i) (AInt j) a = ([], BRaised x).
Proof.
  intros H I J. apply no_int_as in H. pose proof (c_int_as i I) as Ei. pose proof (c_int_as j J) as Ej. unfold blen, blen_atoms, bang. rewrite Ei, Ej. cbn [need]. rewrite H. cbn [need]. auto.
Qed.
Lemma no_word_refused f b x t q1 q2 a3 a4 lo : as_real a3 = inr lo ->
  blen f (Some b) [AReal x; AText q2; a3; a4] = ([], BRaised BType) /\ blen f (Some b) [AText q1; AReal x; a3; a4] = ([], BRaised BType) /\
  blen f (Some b) [AText q1; AText q2; AText t; a4] = ([], BRaised BType) /\ blen f (Some b) [AText q1; AText q2; a3; AText t] = ([], BRaised BType).
Proof. intros E. unfold blen, blen_types. cbn [get_atom_types call PyModel.from_ext named as_text need as_real]. rewrite E. cbn [need]. auto. Qed.

(** * indices of elements *)
Lemma kinds_types l : kinds l (ReportModel.atom_types l).
Proof.
  unfold ReportModel.atom_types. induction l as [|s l IH] using rev_ind; cbn. constructor. rewrite fold_left_app. cbn [fold_left].
  set (ts := fold_left _ l []) in *. destruct (existsb (text_eqb s) ts) eqn:E.
  - apply kinds_old; auto. apply existsb_exists in E as (x & I & E). apply text_eqb_eq in E. subst x. auto.
  - apply kinds_new; auto. intros I. assert (X : existsb (text_eqb s) ts = true). { apply existsb_exists. exists s. split; auto. apply text_eqb_eq. auto. } congruence.
Qed.
Lemma kinds_fun l ts ts' : kinds l ts -> kinds l ts' -> ts = ts'.
Proof.
  intros K. revert ts'. induction K as [|l ts s K IH I|l ts s K IH I]; intros ts' K'; inversion K' as [E|l0 t0 s0 K0 I0 E|l0 t0 s0 K0 I0 E]; try reflexivity.
  all: try (symmetry in E; apply app_eq_nil in E as [_ E]; discriminate E). all: try (apply app_eq_nil in E as [_ E]; discriminate E).
  all: apply app_inj_tail in E as [-> ->]; rewrite (IH _ K0) in *; try contradiction; reflexivity.
Qed.
Lemma named_as f b ts k t a a3 a4 : kinds (symbols b) ts -> nth_error ts k = Some t ->
  blen f (Some b) [AInt (Z.of_nat k + 1); a; a3; a4] = blen f (Some b) [AText (ReportModel.upper t); a; a3; a4] /\
  blen f (Some b) [a; AInt (Z.of_nat k + 1); a3; a4] = blen f (Some b) [a; AText (ReportModel.upper t); a3; a4].
Proof.
  intros K E. pose proof (kinds_fun _ _ _ K (kinds_types _)) as ->.
  assert (N : named (map ReportModel.upper (ReportModel.atom_types (symbols b))) (AInt (Z.of_nat k + 1)) = Some (AText (ReportModel.upper t))).
  { cbn [named]. replace (Z.of_nat k + 1 - 1)%Z with (Z.of_nat k) by lia. rewrite (py_at_in _ _ (ReportModel.upper t)). reflexivity. rewrite nth_error_map, E. reflexivity. }
  split; unfold blen, blen_types; cbn [get_atom_types call PyModel.from_ext]; rewrite N; reflexivity.
Qed.
Lemma named_back f b ts k t a a3 a4 : kinds (symbols b) ts -> nth_error (rev ts) k = Some t ->
  blen f (Some b) [AInt (- Z.of_nat k); a; a3; a4] = blen f (Some b) [AText (ReportModel.upper t); a; a3; a4].
Proof.
  intros K E. pose proof (kinds_fun _ _ _ K (kinds_types _)) as ->.
  assert (N : named (map ReportModel.upper (ReportModel.atom_types (symbols b))) (AInt (- Z.of_nat k)) = Some (AText (ReportModel.upper t))).
  { cbn [named]. rewrite (py_at_neg _ _ (ReportModel.upper t)). reflexivity. rewrite <- map_rev, nth_error_map, E. reflexivity. }
  unfold blen, blen_types; cbn [get_atom_types call PyModel.from_ext]; rewrite N; reflexivity.
Qed.
Lemma named_out f b ts k a a3 a4 : kinds (symbols b) ts -> (Z.of_nat (length ts) < k)%Z -> blen f (Some b) [AInt k; a; a3; a4] = ([], BDone).
Proof.
  intros K E. pose proof (kinds_fun _ _ _ K (kinds_types _)) as ->.
  unfold blen, blen_types; cbn [get_atom_types call PyModel.from_ext named]. rewrite py_at_out. reflexivity. rewrite map_length. lia.
Qed.

(** * the bonds found *)
Lemma bonds_shown b q1 q2 a3 a4 lo hi : ordinary b -> BondSpec.fresh b -> BondSpec.good_cell (BondModel.bp_ph b) -> BondSpec.known q1 -> BondSpec.known q2 -> as_real a3 = inr lo -> as_real a4 = inr hi ->
  exists f0 W rv h ls, (forall f, (f0 <= f)%nat -> blen f (Some b) [AText q1; AText q2; a3; a4] = (h :: ls ++ [] :: match W with [] => [chars "   *** No pairs found ***"] | _ => [] end, BDone)) /\
  header_says q1 q2 lo hi h /\ Forall2 (BondSpec.entry (BondModel.bp_ph b)) W rv /\ Forall2 (bond_shown b) rv ls /\
  NoDup W /\ StronglySorted (BondSpec.before (BondModel.bp_ph b)) W /\
  (forall i j t, In (i, j, t) W -> BondSpec.asked b q1 i /\ BondSpec.asked b q2 j /\ lo <= BondSpec.apart (BondModel.bp_ph b) (i, j, t) <= hi) /\
  (forall i j t, BondSpec.asked b q1 i -> BondSpec.asked b q2 j -> lo <= BondSpec.apart (BondModel.bp_ph b) (i, j, t) <= hi ->
     (forall k, (k < 3)%nat -> Rabs (PdfModel.at_pos (PdfSpec.atom_no (BondModel.bp_ph b) i) k - PdfModel.at_pos (PdfSpec.atom_no (BondModel.bp_ph b) j) k) <= 1) -> In (i, j, t) W).
Proof.
  intros O FR GC K1 K2 E3 E4. destruct (BondFinal.bonds b q1 q2 lo hi FR GC K1 K2) as (f0 & W & rv & F & EN & ND & SS & SO & CO).
  destruct (types_shown f0 b q1 q2 a3 a4 lo hi rv O E3 E4 (F f0 (Nat.le_refl _))) as (h & ls & E & H & S).
  exists f0, W, rv, h, ls. split; [|auto 10]. intros f L. destruct (types_shown f b q1 q2 a3 a4 lo hi rv O E3 E4 (F f L)) as (h' & ls' & E' & _).
  transitivity (blen f0 (Some b) [AText q1; AText q2; a3; a4]).
  - cbn [blen]. unfold blen_types. cbn [get_atom_types call PyModel.from_ext named as_text need]. rewrite E3, E4. cbn [need]. unfold BindModel.b_bond_length_types. cbn [BondModel.on_current].
    rewrite (F f L), (F f0 (Nat.le_refl _)). reflexivity.
  - rewrite E. destruct EN; reflexivity.
Qed.
