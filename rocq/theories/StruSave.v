(** Saved structures read back. *)
From Coq Require Import Ascii String List Arith ZArith Reals Bool Lia Lra.
From Verif Require Import Base MathModel MetricModel MetricSpec MetricProof ParserModel ParserLex PdfModel PdfSpec PdfProof DataModel DataSpec DataProof ElementTable ScatModel ScatSpec ScatProof FmtModel FmtSpec FmtProof FmtGen FmtFinal StruModel StruSpec StruLex StruHead StruIns StruInv.
Import ListNotations.
Local Open Scope R_scope.

(** * numbers *)
Lemma fixed_num p d : dbl_ok d -> exists n, fixed_text p d = print_numeral n /\ numeral_ok n /\ dbl_of n = rnd p d.
Proof.
  intros H. destruct (fixed_print p d H) as (n & E & (OK & Sg & _) & V). exists n. split; auto. split; auto.
  unfold dbl_of, rnd. rewrite V. unfold sign_shown in Sg. rewrite Sg. destruct (d_neg d); auto.
Qed.
Lemma int_num z : int_fits z -> exists n, int_text z = print_int n /\ int_ok n /\ int_value n = z.
Proof.
  intros H. destruct (dec_text_pd (Z.abs z) ltac:(lia)) as (i & Ei & Fi & Wi & Pi).
  exists ((if (z <? 0)%Z then Some true else None), i). unfold int_text, print_int, int_ok, int_value. cbn [fst snd]. rewrite Ei.
  assert ((sign_of (if (z <? 0)%Z then Some true else None) * whole_z i)%Z = z) as V. { rewrite Wi. destruct (Z.ltb_spec z 0); cbn [sign_of]; lia. }
  split. destruct (z <? 0)%Z; reflexivity. rewrite V. split; auto. split. apply plain_ne; auto. auto.
Qed.
Definition comma_sep (k : nat) : text := comma ++ blank_text k.
Lemma comma_sep_ok k : sep (comma_sep k).
Proof. right. exists [], (" "%char :: blank_text k). split; [reflexivity|]. split. constructor. constructor; auto. apply blanks_repeat. Qed.
Lemma sep_rest {A B} (pr : A -> text) (f : B -> text) (ok : A -> Prop) (Q : A -> B -> Prop) w ds :
  (forall d, In d ds -> exists n, f d = pr n /\ ok n /\ Q n d) ->
  exists row, concat (map (fun y => comma ++ y) (map (fun d => pad_left w (f d)) ds)) = row_text pr row /\ Forall (fun y => sep (fst y)) row /\
  Forall (fun x => ok (snd x)) row /\ Forall2 (fun x d => Q (snd x) d) row ds.
Proof.
  induction ds as [|d ds IH]; intros H. exists []. auto.
  destruct IH as (row & E & S & F & F2). { intros x I; apply H; right; auto. }
  destruct (H d (or_introl eq_refl)) as (n & En & On & Qn).
  exists ((comma_sep (w - length (f d)), n) :: row). cbn [map concat]. rewrite E, row_text_cons. unfold comma_sep, pad_left. rewrite En, <- !app_assoc. split; auto.
  split. constructor; auto. apply comma_sep_ok. auto.
Qed.
Lemma sep_row {A B} (pr : A -> text) (f : B -> text) (ok : A -> Prop) (Q : A -> B -> Prop) w b ds :
  (forall d, In d ds -> exists n, f d = pr n /\ ok n /\ Q n d) -> ds <> [] -> blanks b ->
  exists row, b ++ sep_by comma (map (fun d => pad_left w (f d)) ds) = row_text pr row /\ row_seps row /\
  Forall (fun x => ok (snd x)) row /\ Forall2 (fun x d => Q (snd x) d) row ds.
Proof.
  intros H Ne Bl. destruct ds as [|d ds]; [congruence|]. destruct (sep_rest pr f ok Q w ds) as (row & E & S & F & F2). { intros x I; apply H; right; auto. }
  destruct (H d (or_introl eq_refl)) as (n & En & On & Qn).
  exists ((b ++ blank_text (w - length (f d)), n) :: row). cbn [map sep_by]. rewrite E, row_text_cons. unfold pad_left. rewrite En, <- !app_assoc. split; auto.
  split. split; auto. cbn [fst]. apply blanks_app; auto. apply blanks_repeat. auto.
Qed.
Lemma f2_map {A B C} (g : A -> C) (h : B -> C) l m : Forall2 (fun x d => g x = h d) l m -> map g l = map h m.
Proof. induction 1; cbn [map]; congruence. Qed.
Lemma values_printed b ds : Forall dbl_ok ds -> ds <> [] -> blanks b -> values (b ++ sep_by comma (map num9 ds)) (map (rnd 6) ds) [].
Proof.
  intros F N Bl. rewrite Forall_forall in F.
  destruct (sep_row print_numeral (fixed_text 6) numeral_ok (fun n d => dbl_of n = rnd 6 d) 9 b ds) as (row & E & S & O & F2); auto.
  { intros d I. apply fixed_num; auto. }
  exists row. rewrite app_nil_r. split; [exact E|]. split; auto. split; auto. split; [|exact I]. symmetry. apply (f2_map (fun x => dbl_of (snd x))). auto.
Qed.
Lemma ints_printed b zs : Forall int_fits zs -> zs <> [] -> blanks b -> int_values (b ++ sep_by comma (map (fun z => pad_left 9 (int_text z)) zs)) zs [].
Proof.
  intros F N Bl. rewrite Forall_forall in F.
  destruct (sep_row print_int int_text int_ok (fun n d => int_value n = d) 9 b zs) as (row & E & S & O & F2); auto.
  { intros d I. apply int_num; auto. }
  exists row. rewrite app_nil_r. split; [exact E|]. split; auto. split; auto. split; [|exact I]. rewrite <- (map_id zs). symmetry. apply (f2_map (fun x => int_value (snd x))). auto.
Qed.

(** * what is read back *)
Definition ratom (a : satom) : satom :=
  mkSat (sa_sym a) (map (rnd 8) (sa_pos a)) (rnd 4 (sa_occ a)) (map (rnd 8) (sa_dpos a)) (rnd 4 (sa_docc a)) (map (rnd 8) (sa_u a)) (map (rnd 8) (sa_du a)).
Definition rshape (x : dbl) : dbl := if Rlt_dec 0 (d_val x) then rnd 6 x else d_zero.
Definition rphase (p : sphase) : sphase :=
  mkSp (sp_name p) (sp_spcgr p) (rnd 6 (sp_pscale p)) (rnd 6 (sp_delta2 p)) (rnd 6 (sp_delta1 p)) (rnd 6 (sp_sratio p)) (rnd 6 (sp_rcut p))
    (rshape (sp_spdiam p)) (rshape (sp_stepcut p)) (map (rnd 6) (sp_a0 p)) (map (rnd 6) (sp_win p)) (map (rnd 6) (sp_da0 p)) (map (rnd 6) (sp_dwin p))
    (sp_icc p) (sp_ncatoms p) (repeat d_zero 5) (map ratom (sp_atoms p)).

(** ** header *)
Definition smean (m : dbl -> meaning) (x : dbl) : list meaning := if Rlt_dec 0 (d_val x) then [m (rnd 6 x)] else [].
Definition saved (p : sphase) : list meaning :=
  [MTitle (sp_name p); MFormat false; MScale (rnd 6 (sp_pscale p));
   MSharp (rnd 6 (sp_delta2 p)) (rnd 6 (sp_delta1 p)) (rnd 6 (sp_sratio p)) (rnd 6 (sp_rcut p)); MSpcgr (sp_spcgr p)] ++
  smean MSphere (sp_spdiam p) ++ smean MStepcut (sp_stepcut p) ++
  [MCell (map (rnd 6) (sp_a0 p)) (map (rnd 6) (sp_win p)); MDcell (map (rnd 6) (sp_da0 p)) (map (rnd 6) (sp_dwin p)); MNcell (sp_icc p) (sp_ncatoms p)].
Lemma fw w r : wordy w -> starts_blank r -> first_word (w ++ r) w r.
Proof. intros W S. exists []. split; auto. split. constructor. auto. Qed.
Ltac wd := split; [discriminate|repeat (apply Forall_cons; [reflexivity|]); apply Forall_nil].
Lemma gap1 : gap (chars "   "). Proof. split. discriminate. repeat (apply Forall_cons; [left; reflexivity|]); apply Forall_nil. Qed.
Lemma gap2 : gap comma. Proof. split. discriminate. apply Forall_cons. right; reflexivity. apply Forall_cons. left; reflexivity. apply Forall_nil. Qed.
Lemma shape_says kind m x : dbl_ok x -> (kind = chars "sphere" /\ m = MSphere \/ kind = chars "stepcut" /\ m = MStepcut) -> Forall2 says (save_shape kind x) (smean m x).
Proof.
  intros O K. unfold save_shape, smean. destruct (Rlt_dec 0 (d_val x)); auto. constructor; auto.
  destruct (fixed_num 6 x O) as (n & -> & On & <-).
  assert (first_word (chars "shape   " ++ kind ++ comma ++ print_numeral n) (chars "shape") (chars "   " ++ kind ++ comma ++ print_numeral n ++ [])) as F.
  { rewrite app_nil_r. apply (fw (chars "shape") (chars "   " ++ kind ++ comma ++ print_numeral n)). wd. reflexivity. }
  destruct K as [[-> ->] | [-> ->]]; [eapply (S_sphere _ _ _ _ n [] F eq_refl)|eapply (S_stepcut _ _ _ _ n [] F eq_refl)]; auto using gap1, gap2; exact I.
Qed.
Lemma three {A} (l : list A) : length l = 3%nat -> exists a b c, l = [a; b; c].
Proof. destruct l as [|a [|b [|c [|]]]]; try discriminate. eauto. Qed.
Lemma header_says p : good_phase p -> exists hd, save_header p = hd ++ [chars "atoms"] /\ Forall2 says hd (saved p).
Proof.
  intros (N1 & N2 & SW & D7 & [La A0] & [Lw WI] & [Lda DA] & [Ldw DW] & IL & IF & NF & _). rewrite !Forall_cons_iff in D7. destruct D7 as (P1 & P2 & P3 & P4 & P5 & P6 & P7 & _).
  unfold save_header, saved. rewrite !app_assoc. 
  exists ((([chars "title  " ++ sp_name p; chars "format pdffit"; chars "scale  " ++ num9 (sp_pscale p);
    chars "sharp  " ++ sep_by comma (map num9 [sp_delta2 p; sp_delta1 p; sp_sratio p; sp_rcut p]); chars "spcgr   " ++ sp_spcgr p] ++
    save_shape (chars "sphere") (sp_spdiam p)) ++ save_shape (chars "stepcut") (sp_stepcut p)) ++
    [chars "cell   " ++ sep_by comma (map num9 (sp_a0 p ++ sp_win p));
     chars "dcell  " ++ sep_by comma (map num9 (sp_da0 p ++ sp_dwin p));
     chars "ncell  " ++ sep_by comma (map (fun z => pad_left 9 (int_text z)) (sp_icc p ++ [sp_ncatoms p]))]).
  split. rewrite <- !app_assoc. reflexivity.
  assert (blanks (chars "  ")) as B2 by (repeat constructor).
  apply Forall2_app; [apply Forall2_app; [apply Forall2_app|]|].
  - constructor. { apply (S_title (chars "title  " ++ sp_name p) (chars "  ") (sp_name p)). apply (fw (chars "title") (chars "  " ++ sp_name p)). wd. reflexivity. discriminate. repeat (apply Forall_cons; [left; reflexivity|]); apply Forall_nil. exact N2. }
    constructor. { apply (S_pdffit (chars "format pdffit") (chars " pdffit") []). apply (fw (chars "format") (chars " pdffit")). wd. reflexivity. exists [" "%char]. split; [reflexivity|]. split. repeat constructor. split. wd. exact I. }
    constructor. { eapply (S_scale _ (chars "  " ++ num9 (sp_pscale p))). apply (fw (chars "scale") (chars "  " ++ num9 (sp_pscale p))). wd. reflexivity.
      pose proof (values_printed (chars "  ") [sp_pscale p]) as V. cbn [map sep_by concat] in V. rewrite app_nil_r in V. apply V; auto. discriminate. }
    constructor. { eapply (S_sharp _ (chars "  " ++ sep_by comma (map num9 [sp_delta2 p; sp_delta1 p; sp_sratio p; sp_rcut p]))). apply (fw (chars "sharp") (chars "  " ++ _)). wd. reflexivity.
      apply (values_printed (chars "  ") [sp_delta2 p; sp_delta1 p; sp_sratio p; sp_rcut p]); auto. discriminate. }
    constructor; auto. { apply (S_spcgr _ (chars "   " ++ sp_spcgr p) _ []). apply (fw (chars "spcgr") (chars "   " ++ sp_spcgr p)). wd. reflexivity.
      exists (chars "   "). split. rewrite app_nil_r; auto. split. repeat constructor. split; auto. exact I. }
  - apply shape_says; auto.
  - apply shape_says; auto.
  - destruct (three _ La) as (a & b & c & Ea). destruct (three _ Lw) as (al & be & ga & Ew). destruct (three _ Lda) as (da & db & dc & Eda). destruct (three _ Ldw) as (dal & dbe & dga & Edw).
    destruct (three _ IL) as (i & j & k & Ei). rewrite Ea, Ew, Eda, Edw, Ei in *. cbn [app].
    constructor. { eapply (S_cell _ (chars "   " ++ sep_by comma (map num9 [a; b; c; al; be; ga]))). apply (fw (chars "cell") (chars "   " ++ _)). wd. reflexivity.
      apply (values_printed (chars "   ") [a; b; c; al; be; ga]). apply (proj2 (Forall_app _ [a; b; c] [al; be; ga])); auto. discriminate. repeat constructor. }
    constructor. { eapply (S_dcell _ (chars "  " ++ sep_by comma (map num9 [da; db; dc; dal; dbe; dga]))). apply (fw (chars "dcell") (chars "  " ++ _)). wd. reflexivity.
      apply (values_printed (chars "  ") [da; db; dc; dal; dbe; dga]); auto. apply (proj2 (Forall_app _ [da; db; dc] [dal; dbe; dga])); auto. discriminate. }
    constructor; auto. { eapply (S_ncell _ (chars "  " ++ sep_by comma (map (fun z => pad_left 9 (int_text z)) [i; j; k; sp_ncatoms p]))). apply (fw (chars "ncell") (chars "  " ++ _)). wd. reflexivity.
      apply (ints_printed (chars "  ") [i; j; k; sp_ncatoms p]); auto. apply (proj2 (Forall_app _ [i; j; k] [sp_ncatoms p])); auto. discriminate. }
Qed.
Lemma saved_described p ats : described (saved p) ats =
  mkSp (sp_name p) (sp_spcgr p) (rnd 6 (sp_pscale p)) (rnd 6 (sp_delta2 p)) (rnd 6 (sp_delta1 p)) (rnd 6 (sp_sratio p)) (rnd 6 (sp_rcut p))
    (rshape (sp_spdiam p)) (rshape (sp_stepcut p)) (map (rnd 6) (sp_a0 p)) (map (rnd 6) (sp_win p)) (map (rnd 6) (sp_da0 p)) (map (rnd 6) (sp_dwin p))
    (sp_icc p) (sp_ncatoms p) (repeat d_zero 5) ats /\ discus_format (saved p) = false.
Proof.
  unfold saved, smean, rshape. destruct (Rlt_dec 0 (d_val (sp_spdiam p))), (Rlt_dec 0 (d_val (sp_stepcut p))); split; reflexivity.
Qed.
(** ** atoms *)
Lemma sym_means s : good_sym s -> wordy s /\ exists e, means s e /\ esym e = s.
Proof.
  intros (e & I & ->). split.
  - assert (forallb (fun e => match esym e with [] => false | _ => forallb (fun c => negb (is_space c)) (esym e) end) elements = true) as T by (vm_compute; reflexivity).
    rewrite forallb_forall in T. specialize (T e I). split. intros Q. rewrite Q in T. discriminate.
    destruct (esym e) as [|c w]; [discriminate|]. rewrite forallb_forall in T. apply Forall_forall. intros x Ix. apply T in Ix. destruct (is_space x); auto; discriminate.
  - exists e. split; auto. apply lookup_ok. exact (proj1 (lookup_stored e I)).
Qed.
Lemma num_row p w b d : dbl_ok d -> blanks b -> b <> [] -> exists n, b ++ pad_left w (fixed_text p d) = (b ++ blank_text (w - length (fixed_text p d))) ++ print_numeral n /\
  (blanks (b ++ blank_text (w - length (fixed_text p d))) /\ b ++ blank_text (w - length (fixed_text p d)) <> [] /\ numeral_ok n) /\ dbl_of n = rnd p d.
Proof.
  intros O B N. destruct (fixed_num p d O) as (n & E & On & V). exists n. unfold pad_left. rewrite E, <- app_assoc. split; auto. split; auto. split. apply blanks_app; auto. apply blanks_repeat.
  split; auto. intros Q. apply app_eq_nil in Q. tauto.
Qed.
Definition lead_in (b : text) (t : text) : text := b ++ t.
(** a printed group: numbers with separators before them *)
Definition group (b : text) (ds : list dbl) (row : list (text * numeral)) : Prop :=
  b ++ nums17 ds = row_text print_numeral row /\ atom_row row /\ map (fun x => dbl_of (snd x)) row = map (rnd 8) ds.
Lemma group_ok b ds : Forall dbl_ok ds -> blanks b -> (ds = [] -> b = []) -> exists row, group b ds row.
Proof.
  intros F. revert b. induction F as [|d ds O F IH]; intros b B N.
  - exists []. rewrite N by auto. split; [reflexivity|]. split; [constructor|reflexivity].
  - destruct (IH []) as (row & E & A & M); auto. constructor.
    destruct (num_row 8 17 (b ++ [" "%char]) d O) as (n & En & On & V). apply blanks_app; auto. repeat constructor. destruct b; discriminate.
    eexists (((b ++ [" "%char]) ++ blank_text (17 - length (fixed_text 8 d)), n) :: row). split; [|split].
    + rewrite row_text_cons, <- E. cbn [app].
      transitivity (((b ++ [" "%char]) ++ pad_left 17 (fixed_text 8 d)) ++ nums17 ds). unfold nums17, num17. cbn [map concat]. rewrite <- !app_assoc. reflexivity.
      rewrite En, <- !app_assoc. reflexivity.
    + constructor; auto.
    + cbn [map snd]. rewrite V, M. auto.
Qed.
Lemma one_ok b d : dbl_ok d -> blanks b -> exists row, b ++ num12 d = row_text print_numeral row /\ atom_row row /\ map (fun x => dbl_of (snd x)) row = [rnd 4 d].
Proof.
  intros O B. destruct (num_row 4 12 (b ++ [" "%char]) d O) as (n & En & On & V). apply blanks_app; auto. repeat constructor. destruct b; discriminate.
  eexists [((b ++ [" "%char]) ++ blank_text (12 - length (fixed_text 4 d)), n)]. rewrite row_text_cons. unfold row_text. cbn [map concat snd]. rewrite app_nil_r, <- En, V.
  split; [|split; auto]. unfold num12. rewrite <- app_assoc. reflexivity. constructor; auto.
Qed.
Lemma row_text_app {A} (pr : A -> text) a b : row_text pr (a ++ b) = row_text pr a ++ row_text pr b.
Proof. unfold row_text. rewrite map_app, concat_app. auto. Qed.

Lemma firstn_ok {A} (P : A -> Prop) n l : Forall P l -> Forall P (firstn n l) /\ Forall P (skipn n l).
Proof. intros F. rewrite <- (firstn_skipn n l) in F. apply Forall_app in F. auto. Qed.
Lemma atom_printed a : good_atom a -> exists e row t, wordy (sa_sym a) /\ means (sa_sym a) e /\ atom_row row /\
  save_atom a = sa_sym a ++ row_text print_numeral row ++ endl /\ t = endl /\ atom_is false e (map (fun x => dbl_of (snd x)) row) (ratom a).
Proof.
  intros (S & [L1 F1] & [L2 F2] & [L3 F3] & [L4 F4] & O1 & O2). destruct (sym_means _ S) as (W & e & M & E).
  destruct (three _ L1) as (x & y & z & E1). destruct (three _ L2) as (dx & dy & dz & E2).
  destruct (firstn_ok _ 3 _ F3) as [F3a F3b]. destruct (firstn_ok _ 3 _ F4) as [F4a F4b].
  assert (blanks (endl ++ chars "    ")) as Bn by (repeat constructor).
  destruct (group_ok (blank_text (4 - length (sa_sym a))) (sa_pos a)) as (r1 & T1 & A1 & V1); auto using blanks_repeat. { rewrite E1; discriminate. }
  destruct (one_ok [] (sa_occ a) O1) as (r2 & T2 & A2 & V2). constructor.
  destruct (group_ok (endl ++ chars "    ") (sa_dpos a)) as (r3 & T3 & A3 & V3); auto. { rewrite E2; discriminate. }
  destruct (one_ok [] (sa_docc a) O2) as (r4 & T4 & A4 & V4). constructor.
  destruct (group_ok (endl ++ chars "    ") (firstn 3 (sa_u a))) as (r5 & T5 & A5 & V5); auto. { destruct (sa_u a); discriminate. }
  destruct (group_ok (endl ++ chars "    ") (firstn 3 (sa_du a))) as (r6 & T6 & A6 & V6); auto. { destruct (sa_du a); discriminate. }
  destruct (group_ok (endl ++ chars "    ") (skipn 3 (sa_u a))) as (r7 & T7 & A7 & V7); auto. { intros Q. apply (f_equal (@length dbl)) in Q. rewrite skipn_length, L3 in Q. discriminate. }
  destruct (group_ok (endl ++ chars "    ") (skipn 3 (sa_du a))) as (r8 & T8 & A8 & V8); auto. { intros Q. apply (f_equal (@length dbl)) in Q. rewrite skipn_length, L4 in Q. discriminate. }
  exists e, (r1 ++ r2 ++ r3 ++ r4 ++ r5 ++ r6 ++ r7 ++ r8), endl. split; auto. split; auto.
  split. { unfold atom_row in *. rewrite !Forall_app. auto 10. }
  split. { rewrite !row_text_app, <- T1, <- T2, <- T3, <- T4, <- T5, <- T6, <- T7, <- T8. unfold save_atom, pad_right. cbn [app]. rewrite <- !app_assoc. reflexivity. }
  split; auto.
  rewrite !map_app, V1, V2, V3, V4, V5, V6, V7, V8. split; auto. unfold ratom. cbn [sa_pos sa_occ sa_dpos sa_docc sa_u sa_du]. rewrite E1, E2.
  destruct (sa_u a) as [|u1 [|u2 [|u3 [|u4 [|u5 [|u6 [|]]]]]]]; try discriminate. destruct (sa_du a) as [|v1 [|v2 [|v3 [|v4 [|v5 [|v6 [|]]]]]]]; try discriminate.
  cbn [map app firstn skipn]. repeat eexists.
Qed.
Lemma atoms_printed ats : Forall good_atom ats -> forall b, blanks b -> lists_atoms false (b ++ concat (map save_atom ats)) (map ratom ats).
Proof.
  induction 1 as [|a ats G F IH]; intros b B; cbn [map concat].
  - rewrite app_nil_r. apply LA_end. left; auto.
  - destruct (atom_printed a G) as (e & row & t & W & M & A & E & _ & IS). rewrite E. rewrite <- !app_assoc.
    apply (LA_atom false b (sa_sym a) e row (endl ++ concat (map save_atom ats)) (ratom a)); auto. exact (blank_stops (endl ++ _) eq_refl). apply IH. repeat constructor.
Qed.
(** * reading back *)
Lemma one_line_app a b : one_line a -> one_line b -> one_line (a ++ b).
Proof. unfold one_line. intros A B I. apply in_app_or in I. tauto. Qed.
Lemma one_line_blank k : one_line (blank_text k).
Proof. induction k; simpl. intros []. intros [Q|Q]; [discriminate Q|auto]. Qed.
Lemma one_line_num p d : dbl_ok d -> one_line (fixed_text p d).
Proof.
  intros O I. destruct (fixed_num p d O) as (n & E & On & _). rewrite E in I. apply numeral_chars in I; auto.
  destruct I as [Q|[Q|[Q|[Q|[Q|Q]]]]]; discriminate Q.
Qed.
Lemma one_line_int z : int_fits z -> one_line (int_text z).
Proof.
  intros O I. unfold int_text in I. apply in_app_or in I. destruct I as [I|I].
  - destruct (z <? 0)%Z; simpl in I. destruct I as [Q|[]]; discriminate Q. destruct I.
  - destruct (dec_text_pd (Z.abs z) ltac:(lia)) as (i & Ei & Fi & _). rewrite Ei in I. pose proof (pd_digit _ Fi) as P. rewrite Forall_forall in P. apply P in I. discriminate I.
Qed.
Lemma one_line_pad w t : one_line t -> one_line (pad_left w t).
Proof. intros H. apply one_line_app; auto. apply one_line_blank. Qed.
Lemma one_line_sep {A} (f : A -> text) l : Forall (fun x => one_line (f x)) l -> one_line (sep_by comma (map f l)).
Proof.
  assert (one_line comma) as C. { intros Q. repeat (destruct Q as [Q|Q]; [discriminate Q|]); exact Q. }
  intros F. destruct F as [|x l O F]; cbn [map sep_by]. intros []. apply one_line_app; auto. induction F as [|y l Oy F IH]; cbn [map concat]. intros [].
  apply one_line_app; auto. apply one_line_app; auto.
Qed.
Ltac ol := unfold one_line, newline; cbn; let Q := fresh in intros Q; repeat (destruct Q as [Q|Q]; [discriminate Q|]); exact Q.
Lemma nums_line ds : Forall dbl_ok ds -> one_line (sep_by comma (map num9 ds)).
Proof. intros F. apply one_line_sep. revert F. apply Forall_impl. intros d O. apply one_line_pad. apply one_line_num; auto. Qed.
Lemma header_lines p : good_phase p -> Forall one_line (save_header p).
Proof.
  intros (N1 & N2 & SW & D7 & [La A0] & [Lw WI] & [Lda DA] & [Ldw DW] & IL & IF & NF & _). rewrite !Forall_cons_iff in D7. destruct D7 as (P1 & P2 & P3 & P4 & P5 & P6 & P7 & _).
  unfold save_header. rewrite !Forall_app. split; [|split; [|split]].
  - constructor. apply one_line_app; auto; ol. constructor. ol. constructor. apply one_line_app; [ol|]. apply one_line_pad. apply one_line_num; auto.
    constructor. apply one_line_app; [ol|]. apply nums_line; auto. constructor; auto. apply one_line_app; [ol|].
    destruct SW as [_ SW]. rewrite Forall_forall in SW. intros I. apply SW in I. discriminate I.
  - unfold save_shape. destruct (Rlt_dec 0 (d_val (sp_spdiam p))); auto. constructor; auto. apply one_line_app; [ol|]. apply one_line_app; [ol|]. apply one_line_app; [ol|]. apply one_line_num; auto.
  - unfold save_shape. destruct (Rlt_dec 0 (d_val (sp_stepcut p))); auto. constructor; auto. apply one_line_app; [ol|]. apply one_line_app; [ol|]. apply one_line_app; [ol|]. apply one_line_num; auto.
  - constructor. apply one_line_app; [ol|]. apply nums_line. apply Forall_app; auto.
    constructor. apply one_line_app; [ol|]. apply nums_line. apply Forall_app; auto.
    constructor. apply one_line_app; [ol|]. apply one_line_sep. assert (Forall int_fits (sp_icc p ++ [sp_ncatoms p])) as F by (apply Forall_app; auto).
    revert F. apply Forall_impl. intros z O. apply one_line_pad, one_line_int; auto. constructor; auto. ol.
Qed.
Lemma saved_read p : good_phase p -> read_struct (save_struct p) = finish (rphase p).
Proof.
  intros G. destruct (header_says p G) as (hd & E & S). pose proof (header_lines p G) as O. unfold save_struct. rewrite E in *. apply Forall_app in O. destruct O as [O1 O2].
  change (concat (map (fun l => l ++ endl) (hd ++ [chars "atoms"]))) with (lines_text (hd ++ [chars "atoms"])).
  destruct (saved_described p (map ratom (sp_atoms p))) as [D Fm].
  rewrite (struct_read hd (saved p) (chars "atoms") [] _ (map ratom (sp_atoms p)) S O1).
  - rewrite D. reflexivity.
  - inversion O2; auto.
  - exists []. split; [reflexivity|]. split. constructor. split. wd. exact I.
  - rewrite Fm. apply (atoms_printed (sp_atoms p)) with (b := []). apply G. constructor.
Qed.
Lemma rphase_counts p : good_phase p -> counts_fit (rphase p) /\ counts_match (rphase p).
Proof.
  intros (_ & _ & _ & _ & _ & _ & _ & _ & _ & _ & _ & _ & F & M). split; auto. unfold counts_match in *. cbn [rphase sp_atoms sp_ncatoms]. rewrite map_length. auto.
Qed.
Lemma near_rnd k x : near k x (rnd k x).
Proof.
  split; auto. split. apply rnd_close. exists (kof k x). unfold rnd. cbn [d_mag]. field. apply p10.
Qed.
Lemma near_map k l : Forall2 (near k) l (map (rnd k) l).
Proof. induction l; cbn [map]; constructor; auto. apply near_rnd. Qed.
Lemma near_ratom a : near_atom a (ratom a).
Proof. unfold near_atom, ratom. cbn [sa_sym sa_pos sa_occ sa_dpos sa_docc sa_u sa_du]. repeat split; auto using near_map, near_rnd; apply near_rnd. Qed.
Lemma near_rshape x : near_shape x (rshape x).
Proof. unfold near_shape, rshape. destruct (Rlt_dec 0 (d_val x)). left; split; auto; apply near_rnd. right. split; auto. lra. Qed.
Lemma near_rphase p : near_phase p (rphase p).
Proof.
  unfold near_phase, rphase. cbn [sp_name sp_spcgr sp_pscale sp_delta2 sp_delta1 sp_sratio sp_rcut sp_spdiam sp_stepcut sp_a0 sp_win sp_da0 sp_dwin sp_icc sp_ncatoms sp_dev sp_atoms].
  split; auto. split; auto. split. { repeat (apply Forall2_cons; [apply near_rnd|]). apply Forall2_nil. } split. apply near_rshape. split. apply near_rshape. do 4 (split; [apply near_map|]). do 3 (split; auto).
  induction (sp_atoms p); cbn [map]; constructor; auto. apply near_ratom.
Qed.

Lemma num9_rnd d : num9 (rnd 6 d) = num9 d. Proof. unfold num9. rewrite fixed_rnd. auto. Qed.
Lemma num9s_rnd l : map num9 (map (rnd 6) l) = map num9 l.
Proof. rewrite map_map. apply map_ext. apply num9_rnd. Qed.
Lemma num17s_rnd l : nums17 (map (rnd 8) l) = nums17 l.
Proof. unfold nums17. f_equal. rewrite map_map. apply map_ext. intros d. unfold num17. rewrite fixed_rnd. auto. Qed.
Lemma num12_rnd d : num12 (rnd 4 d) = num12 d. Proof. unfold num12. rewrite fixed_rnd. auto. Qed.
Lemma atom_again a : save_atom (ratom a) = save_atom a.
Proof.
  unfold save_atom, ratom. cbn [sa_sym sa_pos sa_occ sa_dpos sa_docc sa_u sa_du]. rewrite !firstn_map, !skipn_map, !num17s_rnd, !num12_rnd. auto.
Qed.
Lemma shape_again kind x : dbl_ok x -> not_tiny x -> save_shape kind (rshape x) = save_shape kind x.
Proof.
  intros O T. unfold rshape, save_shape. destruct (Rlt_dec 0 (d_val x)) as [P|P].
  - destruct T as [T|T]; [lra|]. destruct (Rlt_dec 0 (d_val (rnd 6 x))) as [Q|Q]. rewrite fixed_rnd. auto. elim Q.
    unfold d_val, rnd in *. cbn [d_neg d_mag]. destruct (d_neg x); [unfold dbl_ok in O; lra|].
    apply Rdiv_lt_0_compat; [|apply pow_lt; lra]. apply IZR_lt. assert (1 / 2 < d_mag x * 10 ^ 6) as L by (simpl; lra).
    unfold kof. pose proof (round_even_spec (d_mag x * 10 ^ 6)) as RE. assert (- (1 / 2) <= IZR (round_even (d_mag x * 10 ^ 6)) - d_mag x * 10 ^ 6) as B by (unfold Rabs in RE; destruct Rcase_abs; lra).
    apply lt_IZR. lra.
  - destruct (Rlt_dec 0 (d_val d_zero)) as [Q|Q]; auto. unfold d_val, d_zero in Q; cbn in Q; lra.
Qed.
Lemma save_again p : good_phase p -> not_tiny (sp_spdiam p) -> not_tiny (sp_stepcut p) -> save_struct (rphase p) = save_struct p.
Proof.
  intros (N1 & N2 & SW & D7 & _) T1 T2. rewrite !Forall_cons_iff in D7. destruct D7 as (P1 & P2 & P3 & P4 & P5 & P6 & P7 & _).
  unfold save_struct. f_equal. f_equal. f_equal. unfold save_header. unfold rphase at 1 2 3 4 5 6 7. cbn [sp_name sp_spcgr sp_pscale sp_delta2 sp_delta1 sp_sratio sp_rcut].
  2:{ f_equal. unfold rphase. cbn [sp_atoms]. rewrite map_map. apply map_ext. apply atom_again. }
  cbn [map]. rewrite !num9_rnd. unfold rphase. cbn [sp_name sp_spcgr sp_pscale sp_delta2 sp_delta1 sp_sratio sp_rcut sp_spdiam sp_stepcut sp_a0 sp_win sp_da0 sp_dwin sp_icc sp_ncatoms].
  rewrite !shape_again by auto. rewrite <- !map_app. rewrite !num9s_rnd. auto.
Qed.
Lemma rnd_exact k x : decimals k x -> rnd k x = x.
Proof.
  intros (z & E). unfold rnd, kof. rewrite E, round_even_IZR, <- E. destruct x as [s m]. cbn [d_neg d_mag] in *. f_equal. field. apply p10.
Qed.
Lemma map_exact k l : Forall (decimals k) l -> map (rnd k) l = l.
Proof. induction 1; cbn [map]; auto. rewrite rnd_exact by auto. congruence. Qed.
Lemma ratom_exact a : exact_atom a -> ratom a = a.
Proof.
  intros [F G]. rewrite !Forall_app in F. destruct F as (F1 & F2 & F3 & F4). rewrite !Forall_cons_iff in G. destruct G as (G1 & G2 & _).
  unfold ratom. rewrite !map_exact, !rnd_exact by auto. destruct a; auto.
Qed.
Lemma rshape_exact x : exact_shape x -> rshape x = x.
Proof.
  unfold rshape. intros [-> | [P D]]. destruct (Rlt_dec 0 (d_val d_zero)) as [Q|Q]; auto. unfold d_val, d_zero in Q; cbn in Q; lra.
  destruct (Rlt_dec 0 (d_val x)); [|lra]. apply rnd_exact; auto.
Qed.
Lemma rphase_exact p : exact_phase p -> rphase p = p.
Proof.
  intros (F & S1 & S2 & D & A). rewrite !Forall_app, !Forall_cons_iff in F. destruct F as ((F1 & F2 & F3 & F4 & F5 & _) & F6 & F7 & F8 & F9).
  unfold rphase. rewrite !map_exact, !rnd_exact, !rshape_exact, <- D by auto. replace (map ratom (sp_atoms p)) with (sp_atoms p). destruct p; auto.
  symmetry. induction A; cbn [map]; auto. rewrite ratom_exact by auto. congruence.
Qed.
