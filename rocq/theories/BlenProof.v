(** Proofs about blen and bang. *)
From Coq Require Import Ascii String.
From Coq Require Import List Arith ZArith Reals Bool Lia Lra.
From Verif Require Import Base ParserModel DataModel DataSpec DataProof FmtModel FmtSpec FmtProof FmtGen FmtFinal OutModel OutSpec OutProof OutData BlenModel BlenSpec.
From Verif Require PyModel SaveModel ReportModel ReportSpec PdfModel PdfSpec BondModel BondSpec BondProof BindModel.
Import ListNotations.
Local Open Scope R_scope.

(** * words *)
Lemma w1 w r : word w -> starts_blank r -> words (w ++ r) = w :: words r.
Proof. intros W R. change (words ([] ++ w ++ r) = w :: words r). apply words_word; auto. constructor. Qed.
Lemma dbl_of_ok x : dbl_ok (SaveModel.dbl_of x) /\ d_val (SaveModel.dbl_of x) = x.
Proof.
  unfold dbl_ok, SaveModel.dbl_of, d_val; cbn. split. apply Rabs_pos. destruct (Rlt_dec x 0). rewrite Rabs_left; lra. rewrite Rabs_right; lra.
Qed.
Lemma real_text x : real_word x (general_text 6 (to_dbl x)).
Proof.
  destruct x as [x|]; cbn [to_dbl option_map real_word]; auto. destruct (dbl_of_ok x) as [O V]. destruct (general_print 6 (SaveModel.dbl_of x) ltac:(lia) O) as (n & E & G).
  exists (SaveModel.dbl_of x), n. auto.
Qed.
Lemma real_is_word x w : real_word x w -> word w.
Proof.
  destruct x as [x|]; cbn. intros (d & n & _ & _ & -> & OK & _). apply numeral_word; auto. intros ->. split. repeat constructor. discriminate.
Qed.
Lemma decimal_text z : decimal z (int_text z).
Proof.
  unfold int_text. destruct (dec_text_pd (Z.abs z) ltac:(lia)) as (d & -> & F & V & P).
  exists (mkNum (if (z <? 0)%Z then Some true else None) d None None). split.
  - unfold print_numeral; cbn. rewrite app_nil_r. destruct (z <? 0)%Z; reflexivity.
  - split. { split; auto. split. constructor. split; [|exact I]. cbn. rewrite app_nil_r. apply plain_ne; auto. }
    split. { unfold numeral_value; cbn. rewrite Rplus_0_r, Rmult_1_r. rewrite <- (whole_z_R d), V. rewrite <- mult_IZR. f_equal. destruct (Z.ltb_spec z 0); cbn [sign_of]; lia. }
    cbn. auto.
Qed.
Lemma index_text z : index_word z (chars "(#" ++ int_text z ++ chars ")").
Proof. exists (int_text z). split. apply decimal_text. auto. Qed.
Lemma index_is_word z : word (chars "(#" ++ int_text z ++ chars ")").
Proof. destruct (int_text_word z) as [F N]. split. apply Forall_app; split. repeat constructor. apply Forall_app; split; auto. repeat constructor. discriminate. Qed.
Lemma paren_word w : word w -> word (chars "(" ++ w ++ chars ")").
Proof. intros [F N]. split. apply Forall_app; split. repeat constructor. apply Forall_app; split; auto. repeat constructor. discriminate. Qed.
Lemma value_text x dx : exists ws, value_words x dx ws /\ forall r, starts_blank r -> words (format_value_std (to_dbl x) (to_dbl dx) ++ r) = ws ++ words r.
Proof.
  pose proof (real_text x) as Rx. pose proof (real_is_word _ _ Rx) as Wx. unfold format_value_std. destruct dx as [d|]; cbn [to_dbl option_map].
  - set (larger := exists v, x = Some v /\ Rabs v / 100000000 < d).
    match goal with |- context[if ?b then _ ++ _ ++ _ ++ _ else _] => assert (B : b = true /\ larger \/ b = false /\ ~ larger) end.
    { unfold larger. destruct x as [v|]; cbn [to_dbl option_map].
      - rewrite (proj2 (dbl_of_ok v)), (proj2 (dbl_of_ok d)). destruct (Rlt_dec _ _) as [L|L]; [left|right]; split; auto. exists v. split; auto. lra.
        intros (u & [= <-] & L'). apply L. lra.
      - right. split; auto. intros (u & E & _). discriminate. }
    pose proof (real_text (Some d)) as Rd. pose proof (real_is_word _ _ Rd) as Wd. cbn [to_dbl option_map] in Rd, Wd.
    destruct B as [[B L]|[B L]]; rewrite B.
    + exists [general_text 6 (to_dbl x); chars "(" ++ general_text 6 (Some (SaveModel.dbl_of d)) ++ chars ")"]. split.
      * exists (general_text 6 (to_dbl x)), [chars "(" ++ general_text 6 (Some (SaveModel.dbl_of d)) ++ chars ")"]. split; auto. split; auto.
        fold larger. split; intros L'; [|tauto]. exists (general_text 6 (Some (SaveModel.dbl_of d))). auto.
      * intros r R. rewrite <- !app_assoc. rewrite w1; auto; [|reflexivity]. cbn [app]. f_equal.
        transitivity (words ([" "%char] ++ (chars "(" ++ general_text 6 (Some (SaveModel.dbl_of d)) ++ chars ")") ++ r)). f_equal. rewrite <- !app_assoc. reflexivity.
        rewrite words_word; auto. repeat constructor. apply paren_word; auto.
    + exists [general_text 6 (to_dbl x)]. split.
      * exists (general_text 6 (to_dbl x)), []. split; auto. split; auto. fold larger. split; intros L'; [tauto|auto].
      * intros r R. apply w1; auto.
  - replace (match to_dbl x with Some _ | _ => false end) with false by (destruct (to_dbl x); auto).
    exists [general_text 6 (to_dbl x); chars "(NaN)"]. split.
    + exists (general_text 6 (to_dbl x)), [chars "(NaN)"]. auto.
    + intros r R. rewrite <- app_assoc. destruct (to_dbl x) eqn:E; rewrite w1; auto; try reflexivity; cbn [app]; f_equal;
      (change (words ([" "%char] ++ chars "(NaN)" ++ r) = chars "(NaN)" :: words r); rewrite words_word; auto; [repeat constructor|]; split; [repeat constructor|discriminate]).
Qed.

(** * lines *)
Lemma blank_starts n r : starts_blank r -> starts_blank (blank_text n ++ r).
Proof. destruct n; [auto|reflexivity]. Qed.
Lemma blank_len n : length (blank_text n) = n.
Proof. apply repeat_length. Qed.
Lemma blank_bl n : blanks (blank_text n).
Proof. apply blanks_repeat. Qed.
Lemma name_words s i r : word s -> starts_blank r -> words (atom_name s i ++ r) = s :: (chars "(#" ++ int_text i ++ chars ")") :: words r.
Proof.
  intros W R. unfold atom_name. rewrite <- app_assoc. rewrite w1; auto; [|reflexivity]. f_equal.
  transitivity (words ([" "%char] ++ (chars "(#" ++ int_text i ++ chars ")") ++ r)). { rewrite <- !app_assoc. reflexivity. }
  rewrite words_word; auto. repeat constructor. apply index_is_word.
Qed.
Lemma name_len s i : length (atom_name s i) = (length s + 1 + length (chars "(#" ++ int_text i ++ chars ")"))%nat.
Proof. unfold atom_name. rewrite !app_length. cbn. lia. Qed.
Lemma pad_len n t : length (pad_right n t) = Nat.max n (length t).
Proof. unfold pad_right, blank_text. rewrite app_length, repeat_length. lia. Qed.
Lemma bond_line_ok x dx i j si sj : word si -> word sj -> bond_line si i sj j x dx (format_bond_length (to_dbl x) (to_dbl dx) i j si sj).
Proof.
  intros Wi Wj. destruct (value_text x dx) as (ws & V & W).
  exists (chars "(#" ++ int_text i ++ chars ")"), (chars "(#" ++ int_text j ++ chars ")"), ws. split; [|split; [apply index_text|split; [apply index_text|split; [exact V|]]]].
  - unfold format_bond_length. unfold pad_right at 1. rewrite <- !app_assoc. rewrite words_spaces by (repeat constructor). unfold pad_right. rewrite <- !app_assoc.
    rewrite name_words; auto. 2:{ apply blank_starts. reflexivity. } cbn [app]. do 2 f_equal. rewrite words_spaces by apply blank_bl.
    transitivity (words ([" "%char] ++ chars "-" ++ chars "   " ++ atom_name sj j ++ chars " " ++
       blank_text (30 - length (chars "   " ++ atom_name si i ++ blank_text (10 - length (atom_name si i)) ++ chars " -   " ++ atom_name sj j ++ chars " ")) ++ chars "=   " ++
       format_value_std (to_dbl x) (to_dbl dx) ++ chars " A")). { rewrite <- ?app_assoc. reflexivity. }
    rewrite words_word; [|repeat constructor|split; [repeat constructor|discriminate]|reflexivity]. f_equal. rewrite words_spaces by (repeat constructor).
    rewrite name_words; auto; [|reflexivity]. do 2 f_equal. rewrite words_spaces by (repeat constructor). rewrite words_spaces by apply blank_bl.
    transitivity (words ([] ++ chars "=" ++ chars "   " ++ format_value_std (to_dbl x) (to_dbl dx) ++ chars " A")). reflexivity.
    rewrite words_word; [|constructor|split; [repeat constructor|discriminate]|reflexivity]. f_equal. rewrite words_spaces by (repeat constructor).
    rewrite W by reflexivity. reflexivity.
  - intros Li Lj. set (wi := chars "(#" ++ int_text i ++ chars ")") in *. set (wj := chars "(#" ++ int_text j ++ chars ")") in *.
    assert (Ei : atom_name si i = si ++ chars " " ++ wi) by reflexivity. assert (Ej : atom_name sj j = sj ++ chars " " ++ wj) by reflexivity.
    exists (blank_text (9 - length si - length wi)), (" "%char :: blank_text (10 - length sj - length wj)), (format_value_std (to_dbl x) (to_dbl dx) ++ chars " A").
    split; [|split].
    + unfold format_bond_length. rewrite Ei, Ej. unfold pad_right. rewrite !app_length. cbn [length chars list_ascii_of_string].
      rewrite !blank_len. replace (10 - (length si + (1 + length wi)))%nat with (9 - length si - length wi)%nat by lia.
      match goal with |- context[blank_text (30 - ?z)] => replace (30 - z)%nat with (10 - length sj - length wj)%nat by lia end.
      rewrite <- !app_assoc. reflexivity.
    + rewrite !app_length. rewrite !blank_len. cbn [length chars list_ascii_of_string]. lia.
    + rewrite !app_length. cbn [length chars list_ascii_of_string]. rewrite !blank_len. lia.
Qed.
Lemma angle_line_ok x dx i j k si sj sk : word si -> word sj -> word sk ->
  angle_line si i sj j sk k x dx (chars "   " ++ atom_name si i ++ chars " - " ++ atom_name sj j ++ chars " - " ++ atom_name sk k ++ chars "   =   " ++
        format_value_std (to_dbl x) (to_dbl dx) ++ chars " degrees").
Proof.
  intros Wi Wj Wk. destruct (value_text x dx) as (ws & V & W).
  exists (chars "(#" ++ int_text i ++ chars ")"), (chars "(#" ++ int_text j ++ chars ")"), (chars "(#" ++ int_text k ++ chars ")"), ws.
  split; [|auto using index_text].
  rewrite words_spaces by (repeat constructor). rewrite name_words; auto; [|reflexivity]. cbn [app]. do 2 f_equal.
  assert (D : forall t, words (chars " - " ++ t) = chars "-" :: words t).
  { intros t. transitivity (words ([" "%char] ++ chars "-" ++ [" "%char] ++ t)). reflexivity. rewrite words_word; [|repeat constructor|split; [repeat constructor|discriminate]|reflexivity].
    reflexivity. }
  rewrite D. f_equal. rewrite name_words; auto; [|reflexivity]. do 2 f_equal. rewrite D. f_equal. rewrite name_words; auto; [|reflexivity]. do 2 f_equal.
  transitivity (words (chars "   " ++ chars "=" ++ chars "   " ++ format_value_std (to_dbl x) (to_dbl dx) ++ chars " degrees")). reflexivity.
  rewrite words_word; [|repeat constructor|split; [repeat constructor|discriminate]|reflexivity]. f_equal. rewrite words_spaces by (repeat constructor).
  rewrite W by reflexivity. reflexivity.
Qed.

(** * indices *)
Lemma py_at_in {A} (l : list A) k a : nth_error l k = Some a -> py_at l (Z.of_nat k) = Some a.
Proof.
  intros E. assert (L : (k < length l)%nat) by (apply nth_error_Some; congruence). unfold py_at. destruct (Z.ltb_spec (Z.of_nat k) 0); [lia|].
  destruct (Z.ltb_spec (Z.of_nat k) 0); [lia|]. destruct (Z.leb_spec (Z.of_nat (length l)) (Z.of_nat k)); [lia|]. cbn. rewrite Nat2Z.id. auto.
Qed.
Lemma py_at_neg {A} (l : list A) k a : nth_error (rev l) k = Some a -> py_at l (- Z.of_nat k - 1) = Some a.
Proof.
  intros E. assert (L : (k < length l)%nat) by (rewrite <- rev_length; apply nth_error_Some; congruence).
  unfold py_at. destruct (Z.ltb_spec (- Z.of_nat k - 1) 0); [|lia]. destruct (Z.ltb_spec (- Z.of_nat k - 1 + Z.of_nat (length l)) 0); [lia|].
  destruct (Z.leb_spec (Z.of_nat (length l)) (- Z.of_nat k - 1 + Z.of_nat (length l))); [lia|]. cbn [orb].
  replace (Z.to_nat (- Z.of_nat k - 1 + Z.of_nat (length l))) with (length l - S k)%nat by lia.
  assert (X : nth k (rev l) a = a) by (apply nth_error_nth; auto). rewrite rev_nth in X by auto.
  transitivity (Some (nth (length l - S k) l a)); [|f_equal; exact X]. apply nth_error_nth'. lia.
Qed.
Lemma py_at_out {A} (l : list A) k : (Z.of_nat (length l) <= k \/ k < - Z.of_nat (length l))%Z -> py_at l k = None.
Proof.
  intros H. unfold py_at. destruct (Z.ltb_spec k 0).
  - destruct (Z.ltb_spec (k + Z.of_nat (length l)) 0); [auto|lia].
  - destruct (Z.ltb_spec k 0); [lia|]. destruct (Z.leb_spec (Z.of_nat (length l)) k); [auto|lia].
Qed.
Lemma syms_len b : length (symbols b) = natoms b.
Proof. unfold symbols, natoms. rewrite map_length, seq_length. auto. Qed.
Lemma sym_at b k : (k < natoms b)%nat -> nth_error (symbols b) k = Some (BondModel.bp_sym b k).
Proof.
  intros L. unfold symbols. rewrite nth_error_map. rewrite (nth_error_nth' _ 0%nat) by (rewrite seq_length; auto). rewrite seq_nth by auto. reflexivity.
Qed.
Lemma up_at b k : (k < natoms b)%nat -> py_at (map ReportModel.upper (symbols b)) (Z.of_nat k) = Some (ReportModel.upper (BondModel.bp_sym b k)).
Proof. intros L. apply py_at_in. rewrite nth_error_map, sym_at by auto. reflexivity. Qed.
Lemma to_up_idem c : ScatModel.to_up (ScatModel.to_up c) = ScatModel.to_up c.
Proof. destruct c as [[] [] [] [] [] [] [] []]; vm_compute; reflexivity. Qed.
Lemma upper_idem s : ReportModel.upper (ReportModel.upper s) = ReportModel.upper s.
Proof. unfold ReportModel.upper. rewrite map_map. apply map_ext. apply to_up_idem. Qed.
Lemma up_word s : ReportSpec.symbol s -> word (ReportModel.upper s).
Proof. intros H. apply (ReportSel.symbol_word s H). Qed.

(** * bonds have atoms *)
Lemma insert_in x y l : In y (BondModel.insert_pd x l) <-> y = x \/ In y l.
Proof. induction l as [|z l IH]; cbn. intuition. destruct (BondModel.pd_lt z x); cbn; [rewrite IH|]; intuition. Qed.
Lemma sort_in y l : In y (BondModel.stable_sort l) <-> In y l.
Proof. induction l as [|x l IH]; cbn. tauto. rewrite insert_in, IH. intuition. Qed.
Definition exists_in (b : BondModel.bphase) (pd : BondModel.pair_dist) : Prop :=
  exists i j, (i < natoms b)%nat /\ (j < natoms b)%nat /\ BondModel.pd_i pd = (Z.of_nat i + 1)%Z /\ BondModel.pd_j pd = (Z.of_nat j + 1)%Z.
Lemma sel_in b q l i : BondModel.select_atoms b q = Ok l -> In i l -> (i < natoms b)%nat.
Proof.
  unfold BondModel.select_atoms, natoms. destruct (text_eqb _ _) eqn:T; [|destruct (ScatModel.pt_lookup _ q)]; try discriminate; intros [= <-] I.
  apply in_seq in I. lia. apply filter_In in I as [I _]. apply in_seq in I. lia.
Qed.
Lemma types_in fuel b q1 q2 lo hi rv pd : BondModel.bond_length_types fuel b q1 q2 lo hi = Ok rv -> In pd rv -> exists_in b pd.
Proof.
  unfold BondModel.bond_length_types. destruct (BondModel.select_atoms b q1) as [l1| | |] eqn:E1; try discriminate. destruct (BondModel.select_atoms b q2) as [l2| | |] eqn:E2; try discriminate.
  cbn [obind]. match goal with |- context[obind ?x _] => destruct x; try discriminate end. cbn [obind]. intros [= <-] I. apply (proj1 (sort_in _ _)) in I.
  apply in_flat_map in I as (i & I1 & I). apply in_flat_map in I as (j & I2 & I). apply in_flat_map in I as ([[m n] o] & _ & I).
  unfold BondModel.one_bond in I. destruct (BondModel.dist_of b _); [|destruct I]. destruct (Rle_dec lo r); [|destruct I]. destruct (Rle_dec r hi); [|destruct I].
  destruct I as [<-|[]]. exists i, j. split; [exact (sel_in _ _ _ _ E1 I1)|]. split; [exact (sel_in _ _ _ _ E2 I2)|]. split; cbn; lia.
Qed.
Lemma lines_shown b rv : ordinary b -> (forall pd, In pd rv -> exists_in b pd) ->
  exists ls, bond_lines (map ReportModel.upper (symbols b)) rv = (ls, BDone) /\ Forall2 (bond_shown b) rv ls.
Proof.
  intros [S _]. induction rv as [|pd rv IH]; intros H; cbn [bond_lines]. eauto.
  destruct (H pd (or_introl eq_refl)) as (i & j & Li & Lj & Ei & Ej). rewrite Ei, Ej.
  replace (Z.of_nat i + 1 - 1)%Z with (Z.of_nat i) by lia. replace (Z.of_nat j + 1 - 1)%Z with (Z.of_nat j) by lia. rewrite !up_at by auto.
  destruct IH as (ls & E & F). { intros p I. apply H. cbn; auto. } rewrite E. eexists. split. reflexivity. constructor; auto.
  exists i, j. rewrite Ei, Ej. repeat split; auto. apply bond_line_ok; apply up_word; apply S; auto.
Qed.
(** even without ordinary symbols there is no IndexError *)
Lemma lines_done b rv : (forall pd, In pd rv -> exists_in b pd) -> snd (bond_lines (map ReportModel.upper (symbols b)) rv) = BDone.
Proof.
  induction rv as [|pd rv IH]; intros H; cbn [bond_lines]. auto.
  destruct (H pd (or_introl eq_refl)) as (i & j & Li & Lj & Ei & Ej). rewrite Ei, Ej.
  replace (Z.of_nat i + 1 - 1)%Z with (Z.of_nat i) by lia. replace (Z.of_nat j + 1 - 1)%Z with (Z.of_nat j) by lia. rewrite !up_at by auto.
  specialize (IH ltac:(intros p I; apply H; cbn; auto)). destruct (bond_lines _ rv). exact IH.
Qed.

(** * calls *)
Lemma number_at b i k : BondSpec.number (BondModel.bp_ph b) i k -> (k < natoms b)%nat /\ i = (Z.of_nat k + 1)%Z.
Proof. intros [A B]. split; auto. Qed.
Lemma int_in b i k : ordinary b -> BondSpec.number (BondModel.bp_ph b) i k -> PyModel.c_int i = true.
Proof. intros [_ O] N. destruct (number_at _ _ _ N). unfold PyModel.c_int. apply andb_true_iff. split; apply Z.leb_le; lia. Qed.
Lemma atoms_shown fuel b i j ki kj r : ordinary b -> BondSpec.number (BondModel.bp_ph b) i ki -> BondSpec.number (BondModel.bp_ph b) j kj ->
  BondModel.bond_length_atoms fuel b i j = Ok r ->
  exists l, blen fuel (Some b) [AInt i; AInt j] = ([l], BDone) /\
  bond_line (ReportModel.upper (BondModel.bp_sym b ki)) i (ReportModel.upper (BondModel.bp_sym b kj)) j (BondModel.pd_dij r) (Some (BondModel.pd_ddij r)) l.
Proof.
  intros O Ni Nj E. pose proof (int_in _ _ _ O Ni) as Ci. pose proof (int_in _ _ _ O Nj) as Cj. destruct (number_at _ _ _ Ni) as [Li Ei]. destruct (number_at _ _ _ Nj) as [Lj Ej].
  cbn [blen]. unfold blen_atoms. cbn [as_int]. rewrite Ci, Cj. cbn [need]. unfold BindModel.b_bond_length_atoms. cbn [BondModel.on_current]. rewrite E. cbn [BindModel.catching call PyModel.from_ext get_atoms].
  rewrite map_length, syms_len. destruct (Z.leb_spec 0 (Z.min i j - 1)); [|lia]. destruct (Z.ltb_spec (Z.max i j - 1) (Z.of_nat (natoms b))); [|lia]. cbn [andb].
  replace (i - 1)%Z with (Z.of_nat ki) by lia. replace (j - 1)%Z with (Z.of_nat kj) by lia. rewrite !up_at by auto. rewrite !upper_idem.
  eexists. split. reflexivity. apply bond_line_ok; apply up_word; apply O; auto.
Qed.
Lemma types_shown fuel b q1 q2 a3 a4 lo hi rv : ordinary b -> as_real a3 = inr lo -> as_real a4 = inr hi ->
  BondModel.bond_length_types fuel b q1 q2 lo hi = Ok rv ->
  exists h ls, blen fuel (Some b) [AText q1; AText q2; a3; a4] = (h :: ls ++ [] :: match rv with [] => [chars "   *** No pairs found ***"] | _ => [] end, BDone) /\
  header_says q1 q2 lo hi h /\ Forall2 (bond_shown b) rv ls.
Proof.
  intros O E3 E4 E. cbn [blen]. unfold blen_types. cbn [get_atom_types call PyModel.from_ext named as_text need]. rewrite E3, E4. cbn [need].
  unfold BindModel.b_bond_length_types. cbn [BondModel.on_current]. rewrite E. cbn [BindModel.catching call PyModel.from_ext get_atoms].
  destruct (lines_shown b rv O) as (ls & L & F). { intros pd I. eapply types_in; eauto. } rewrite L.
  exists (bond_header q1 q2 lo hi), ls. split; auto. split; auto. exists (general_text 6 (to_dbl (Some lo))), (general_text 6 (to_dbl (Some hi))).
  split. apply real_text. split. apply real_text. reflexivity.
Qed.
Lemma bang_shown fuel b i j k ki kj kk r : ordinary b -> BondSpec.number (BondModel.bp_ph b) i ki -> BondSpec.number (BondModel.bp_ph b) j kj -> BondSpec.number (BondModel.bp_ph b) k kk ->
  BondModel.bond_angle fuel b i j k = Ok r ->
  exists l, bang fuel (Some b) (AInt i) (AInt j) (AInt k) = ([l], BDone) /\
  angle_line (ReportModel.upper (BondModel.bp_sym b ki)) i (ReportModel.upper (BondModel.bp_sym b kj)) j (ReportModel.upper (BondModel.bp_sym b kk)) k (fst r) (snd r) l.
Proof.
  intros O Ni Nj Nk E. pose proof (int_in _ _ _ O Ni) as Ci. pose proof (int_in _ _ _ O Nj) as Cj. pose proof (int_in _ _ _ O Nk) as Ck.
  destruct (number_at _ _ _ Ni) as [Li Ei]. destruct (number_at _ _ _ Nj) as [Lj Ej]. destruct (number_at _ _ _ Nk) as [Lk Ek].
  unfold bang. cbn [as_int]. rewrite Ci, Cj, Ck. cbn [need]. unfold BindModel.b_bond_angle. cbn [BondModel.on_current]. rewrite E. cbn [BindModel.catching call PyModel.from_ext get_atoms].
  replace (i - 1)%Z with (Z.of_nat ki) by lia. replace (j - 1)%Z with (Z.of_nat kj) by lia. replace (k - 1)%Z with (Z.of_nat kk) by lia. rewrite !up_at by auto.
  eexists. split. reflexivity. apply angle_line_ok; apply up_word; apply O; auto.
Qed.
