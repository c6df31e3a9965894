(** References to variables: setpar, constrain, the builders of texts and ALL. *)
From Coq Require Import Ascii String.
From Coq Require Import List ZArith Reals Bool Lia.
From Verif Require Import Base ParserModel DataSpec DataProof FmtModel FmtProof SessModel SessSpec PyModel PySpec PyText PyProof PyRef.
From Verif Require BindModel SessProof SessProof2 ParamModel ConModel DataModel.
Import ListNotations.
Local Open Scope Z_scope.

(** * texts made by the methods *)
Lemma whole_int_text i : whole_number (int_text i) i.
Proof.
  destruct (dec_text_pd (Z.abs i) ltac:(lia)) as (d & Ed & Fd & Wd & Pd). exists (if i <? 0 then Some true else None), [d].
  unfold int_text. rewrite Ed. cbn [print_groups concat]. rewrite app_nil_r, Wd. split; [destruct (i <? 0); reflexivity|]. split; [discriminate|]. split.
  - constructor; auto. split; auto. now apply plain_ne.
  - destruct (Z.ltb_spec i 0); cbn [sign_of]; lia.
Qed.
Lemma vec_name_in v : In (vec_name v, v) indexed.
Proof. destruct v as [|[]]; find_in. Qed.
Lemma denotes_vec v i : denotes (vec_text v i) (inl (v, i)).
Proof.
  unfold vec_text. apply (den_indexed [] (vec_name v) v [] [] [] (int_text i) i [] [")"%char]);
    [constructor|apply vec_name_in|constructor|constructor|constructor|apply whole_int_text|constructor|constructor; [reflexivity|constructor]].
Qed.
Lemma sca_name_in v : In (sca_name v) (map fst of_phase ++ map fst of_set).
Proof. apply in_by. destruct v; reflexivity. Qed.
Lemma denotes_sca v : denotes (sca_name v) (inr (sca_name v)).
Proof. rewrite <- (app_nil_r (sca_name v)) at 1. apply (den_single [] _ []); [constructor|apply sca_name_in|constructor]. Qed.
Lemma lattice_text n : match lat_text n with
  | RVal t => exists k, In (n, k) lattice_numbers /\ denotes t (inl (Vlat, k))
  | RExc x => x = XKey /\ ~ In n (map fst lattice_numbers)
  | _ => False end.
Proof.
  unfold lat_text, lat_number. destruct (find _ _) as [[m k]|] eqn:F; cbn [option_map snd].
  - apply find_some in F. destruct F as [I E]. cbn [fst] in E. unfold text_eqb in E. destruct (list_eq_dec ascii_dec (chars m) n) as [<-|]; [|discriminate].
    exists k. split; [|apply denotes_vec]. unfold lattice_numbers. apply in_map_iff. exists (m, k). auto.
  - split; auto. intros H. apply in_map_iff in H. destruct H as ([m k] & E & I). cbn [fst] in E. subst m. unfold lattice_numbers in I. apply in_map_iff in I.
    destruct I as ([m j] & E & I). pose proof (find_none _ _ F _ I) as X. cbn [fst snd] in *. injection E as E1 E2. unfold text_eqb in X.
    destruct (list_eq_dec ascii_dec (chars m) n); [discriminate|congruence].
Qed.
Lemma lattice_all n k : In (n, k) lattice_numbers -> lat_text n = RVal (vec_text Vlat k).
Proof. unfold lattice_numbers. cbn [map In fst snd]. intros H. repeat (destruct H as [H|H]; [injection H as <- <-; reflexivity|]). destruct H. Qed.
Lemma convert_sca v s x : PyModel.getvar (ASca v) s = PyModel.getvar (AText (sca_name v)) s /\ PyModel.setvar (ASca v) x s = PyModel.setvar (AText (sca_name v)) x s.
Proof. split; reflexivity. Qed.

(** * numbers as texts *)
Lemma drop_us_no t : forall b, ~ In "_"%char t -> drop_us b t = Some t.
Proof.
  induction t as [|c t IH]; intros b H; cbn [drop_us]; auto. destruct (Ascii.eqb_spec c "_") as [->|N]. destruct H; now left.
  rewrite IH; auto. intros I. apply H. now right.
Qed.
Lemma numeral_chars n c : numeral_ok n -> In c (print_numeral n) -> is_digit c = true \/ In c ["+"; "-"; "."; "e"; "E"]%char.
Proof.
  intros (F1 & F2 & _ & F4).
  assert (S : forall s, In c (print_sign s) -> In c ["+"; "-"; "."; "e"; "E"]%char). { intros [[]|]; cbn; tauto. }
  assert (D : forall d, Forall (fun k => (k < 10)%nat) d -> In c (print_digits d) -> is_digit c = true).
  { intros d F H. apply pd_digit in F. rewrite Forall_forall in F. auto. }
  unfold print_numeral. rewrite !in_app_iff. intros [H|[H|[H|H]]]; eauto.
  - destruct (nu_frac n) as [d|]; [|destruct H]. destruct H as [<-|H]; [cbn; tauto|eauto].
  - destruct (nu_exp n) as [[[up s] d]|]; [|destruct H]. destruct F4 as [F4 _]. destruct H as [<-|H]; [destruct up; cbn; tauto|].
    apply in_app_or in H. destruct H as [H|H]; eauto.
Qed.
Lemma digit_not_space c : is_digit c = true -> is_space c = false.
Proof. intros H. destruct (digit_nat c H) as (k & L & ->). do 10 (destruct k as [|k]; [reflexivity|]). lia. Qed.
Lemma py_float_numeral b1 n b2 : blanks b1 -> numeral_ok n -> blanks b2 -> py_float (b1 ++ print_numeral n ++ b2) = Some (Some (numeral_value n)).
Proof.
  intros B1 O B2. unfold py_float.
  assert (Sp : forall c, In c (print_numeral n) -> is_space c = false).
  { intros c H. destruct (numeral_chars n c O H) as [D|D]. now apply digit_not_space. cbn in D. repeat (destruct D as [<-|D]; [reflexivity|]). destruct D. }
  destruct (print_head n O) as (c0 & q & E & S0 & _).
  rewrite strip_firm; auto.
  2:{ apply firm_all; auto. congruence. }
  rewrite drop_us_no.
  2:{ intros H. destruct (numeral_chars n _ O H) as [D|D]; [discriminate|]. cbn in D. repeat (destruct D as [D|D]; [discriminate|]). destruct D. }
  pose proof (scan_double_print [] n [] ltac:(constructor) O I) as SD. cbn [app] in SD. rewrite app_nil_r in SD. unfold DataModel.scan_double in SD.
  assert (skipws (print_numeral n) = print_numeral n) as W. { rewrite E. simpl. now rewrite S0. } rewrite W in SD.
  destruct (sign_split (print_numeral n)) as [neg v]. destruct (scan_float v) as [[[m e] r]|]; [|discriminate]. injection SD as SD1 SD2. subst r. rewrite SD1. reflexivity.
Qed.

(** a text that denotes a variable does not read as a number *)
Lemma lstrip_head f t c r : lstrip f t = c :: r -> f c = false.
Proof. induction t as [|h t IH]; cbn; [discriminate|]. destruct (f h) eqn:E; auto. intros Q. injection Q as -> ->. exact E. Qed.
Lemma lstrip_app f a b : lstrip f (a ++ b) = match lstrip f a with [] => lstrip f b | w => w ++ b end.
Proof. induction a as [|h a IH]; cbn; auto. destruct (f h); auto. Qed.
Lemma strip_head f t c r : lstrip f t = c :: r -> exists q, strip f t = c :: q.
Proof.
  intros E. unfold strip. pose proof (lstrip_head f t c r E) as N. rewrite E. cbn [rev]. rewrite lstrip_app. destruct (lstrip f (rev r)) as [|d w].
  - cbn. rewrite N. exists []. reflexivity.
  - rewrite rev_app_distr. cbn. eauto.
Qed.
Definition odd_head (c : ascii) : bool :=
  negb (is_digit c) && negb (existsb (Ascii.eqb c) ["."; "+"; "-"; "_"]%char) && negb (existsb (Ascii.eqb (lower c)) ["i"; "n"]%char).
Lemma py_float_head t c r : lstrip is_space t = c :: r -> odd_head c = true -> py_float t = None.
Proof.
  intros E O. unfold odd_head in O. rewrite !andb_true_iff, !negb_true_iff in O. destruct O as [[O1 O2] O3]. cbn [existsb] in O2, O3. rewrite !orb_false_r in O2, O3. repeat rewrite orb_false_iff in O2. rewrite orb_false_iff in O3.
  destruct O2 as (D1 & D2 & D3 & D4). destruct O3 as (D5 & D6).
  destruct (strip_head is_space t c r E) as (q & Q). unfold py_float. rewrite Q. cbn [drop_us]. rewrite D4. destruct (drop_us (is_digit c) q) as [u|]; [|reflexivity]. cbn [option_map].
  unfold sign_split. rewrite D3, D2. rewrite scan_float_none; auto. 2:{ intros ->. discriminate. }
  cbn [map existsb]. rewrite orb_false_r.
  assert (TE : forall w d, hd_error w = Some d -> Ascii.eqb (lower c) d = false -> text_eqb (lower c :: map lower u) w = false).
  { intros [|e w] d H N; [discriminate|]. injection H as ->. unfold text_eqb. destruct (list_eq_dec ascii_dec (lower c :: map lower u) (d :: w)) as [X|]; auto.
    injection X as X _. rewrite X, Ascii.eqb_refl in N. discriminate. }
  rewrite (TE (chars "inf") "i"%char), (TE (chars "infinity") "i"%char), (TE (chars "nan") "n"%char) by auto. reflexivity.
Qed.
Lemma white_head b c w : white b -> odd_head c = true -> is_space c = false -> exists d r, lstrip is_space (b ++ c :: w) = d :: r /\ odd_head d = true.
Proof.
  intros F O Ns. rewrite lstrip_app. destruct (lstrip is_space b) as [|d r] eqn:E.
  - cbn. rewrite Ns. eauto.
  - exists d, (r ++ c :: w). split; [reflexivity|]. pose proof (lstrip_head _ _ _ _ E) as N.
    assert (I : In d b). { destruct (lstrip_inv is_space b) as (x & Ex & _). rewrite Ex, E. apply in_or_app. right. now left. }
    unfold white in F. rewrite Forall_forall in F. specialize (F d I). rewrite <- (ascii_nat_embedding d) in N |- *.
    cbn [In] in F. repeat (destruct F as [F|F]; [rewrite <- F in *; try discriminate N; reflexivity|]). destruct F.
Qed.
Lemma denotes_not_float t d : denotes t d -> py_float t = None.
Proof.
  intros D.
  assert (H : exists b c w, t = b ++ c :: w /\ white b /\ odd_head c = true /\ is_space c = false).
  { assert (Q : forall l, Forall (fun n => exists c w, n = c :: w /\ odd_head c = true /\ is_space c = false) l ->
      forall b name r, white b -> In name l -> exists b' c w, b ++ name ++ r = b' ++ c :: w /\ white b' /\ odd_head c = true /\ is_space c = false).
    { intros l F b name r W I. rewrite Forall_forall in F. destruct (F _ I) as (c & w & -> & O & N). exists b, c, (w ++ r). auto. }
    inversion D as [b1 name v b2 r1 b3 w i b4 r2 W1 M|b1 name b2 W1 M]; subst.
    - apply (Q (map fst indexed)); auto. 2:{ apply in_map_iff. exists (name, v). auto. }
      unfold indexed. cbn [map fst]. repeat (apply Forall_cons || apply Forall_nil); do 2 eexists; (split; [reflexivity|split; reflexivity]).
    - apply (Q (map fst of_phase ++ map fst of_set)); auto.
      unfold of_phase, of_set. cbn [map fst app]. repeat (apply Forall_cons || apply Forall_nil); do 2 eexists; (split; [reflexivity|split; reflexivity]). }
  destruct H as (b & c & w & -> & W & O & N). destruct (white_head b c w W O N) as (e & r & E & Oe). eapply py_float_head; eauto.
Qed.

(** * setpar *)
Lemma setpar_number par x s t b1 n b2 : 
  PyModel.setpar par (ANum x) s t = (s, ParamModel.setpar t par (Some x), RVal tt) /\
  (blanks b1 -> numeral_ok n -> blanks b2 -> PyModel.setpar par (AText (b1 ++ print_numeral n ++ b2)) s t = (s, ParamModel.setpar t par (Some (numeral_value n)), RVal tt)).
Proof. split; [reflexivity|]. intros B1 O B2. unfold PyModel.setpar. cbn [convert]. rewrite py_float_numeral by auto. reflexivity. Qed.
Lemma setpar_text par u s t : py_float u = None -> PyModel.setpar par (AText u) s t =
  match PyModel.get_ref (AText u) s with
    | (s', RVal (OVar h)) => let (t', r) := setpar_RV par h s' t in (s', t', r)
    | (s', RVal OOther) => (s', t, RUndef)
    | (s', RExc x) => (s', t, RExc x)
    | (s', RUndef) => (s', t, RUndef) | (s', RAbort) => (s', t, RAbort) | (s', RHang) => (s', t, RHang) | (s', RForeign) => (s', t, RForeign)
    end.
Proof. intros F. unfold PyModel.setpar. cbn [convert]. rewrite F. reflexivity. Qed.
Lemma setpar_var look h s u d a l par t : reachable look h s -> denotes u d -> lives s d a l -> (forall v p, cur_phase s p -> vsize v p < 2^31) ->
  exists y, value_at s a l y /\ PyModel.setpar par (AText u) s t = (s, ParamModel.setpar t par (Some y), RVal tt).
Proof.
  intros R D L B. destruct (ref_lives look h s u d a l R D L B) as (hd & G & P & _ & K). pose proof (SessProof2.reach_inv _ _ _ R) as I.
  rewrite setpar_text by (eapply denotes_not_float; eauto). rewrite G. unfold setpar_RV. destruct K as [(p & Ip & <- & O)|(e & Ie & <- & O)].
  - destruct (SessProof2.use_phase_ref hd s p l I Ip P O) as [V _]. exists (ph_val p l). split; [left; eauto|]. rewrite V. reflexivity.
  - destruct (SessProof2.use_set_ref hd s e l I Ie P O) as [V _]. exists (ds_val e l). split; [right; eauto|]. rewrite V. reflexivity.
Qed.
(** a text that is no number: setpar fails as getvar does, and sets what getvar returns *)
Lemma setpar_as_getvar par u s t : py_float u = None ->
  PyModel.setpar par (AText u) s t =
  (fst (PyModel.getvar (AText u) s), match snd (PyModel.getvar (AText u) s) with RVal y => ParamModel.setpar t par (Some y) | _ => t end,
   match snd (PyModel.getvar (AText u) s) with RVal y => RVal tt | RExc x => RExc x | RUndef => RUndef | RAbort => RAbort | RHang => RHang | RForeign => RForeign end).
Proof.
  intros F. rewrite setpar_text by auto. unfold PyModel.getvar, with_ref. destruct (PyModel.get_ref (AText u) s) as [s' [[hd|]| | | | |]]; try reflexivity.
  unfold setpar_RV. destruct (SessModel.getvar hd s') as [y|e| |]; try reflexivity. unfold omap, obind, BindModel.catching. destruct (BindModel.c_unassigned e); reflexivity.
Qed.

(** * ALL *)
Lemma upper_letter c d : (65 <= nat_of_ascii c <= 90)%nat -> (upper d = c <-> c = d \/ nat_of_ascii d = nat_of_ascii c + 32)%nat.
Proof.
  intros B. unfold upper. destruct (Nat.leb_spec 97 (nat_of_ascii d)), (Nat.leb_spec (nat_of_ascii d) 122); cbn [andb].
  - split.
    + intros E. right. rewrite <- E, nat_ascii_embedding by lia. lia.
    + intros [<-|E]; [lia|]. rewrite E. replace (nat_of_ascii c + 32 - 32)%nat with (nat_of_ascii c) by lia. apply ascii_nat_embedding.
  - split; [auto|]. intros [E|E]; [auto|lia].
  - split; [auto|]. intros [E|E]; [auto|lia].
  - split; [auto|]. intros [E|E]; [auto|lia].
Qed.
Lemma upper_text w : Forall (fun c => (65 <= nat_of_ascii c <= 90)%nat) w -> forall t, map upper t = w <-> letters_of w t.
Proof.
  unfold letters_of. induction 1 as [|c w B F IH]; intros t.
  - split; intros H. now destruct t. now inversion H.
  - destruct t as [|d t]; cbn [map]. split; intros H; [discriminate|inversion H]. split; intros H.
    + injection H as H1 H2. constructor. now apply (upper_letter c d B). now apply IH.
    + inversion H as [|? ? ? ? H1 H2]; subst. f_equal. now apply upper_letter. now apply IH.
Qed.
Lemma all_text t : text_eqb (map upper t) (chars "ALL") = true <-> letters_of (chars "ALL") t.
Proof.
  unfold text_eqb. destruct (list_eq_dec ascii_dec (map upper t) (chars "ALL")) as [E|E].
  - split; auto. intros _. apply upper_text; auto. repeat constructor; cbn; lia.
  - split; [discriminate|]. intros H. exfalso. apply E. apply upper_text; auto. repeat constructor; cbn; lia.
Qed.
(** * constrain *)
Lemma fcon_cases w : match fcon_number w with
  | Some k => exists ty, In (w, ty) con_types /\ w <> [] /\ forall (c : cstate) a n, ConModel.constrain_int c a n k = (ConModel.constrain c a [] n ty, Ok tt)
  | None => w = [] \/ forall ty, ~ In (w, ty) con_types end.
Proof.
  unfold fcon_number. cbn [find fst snd].
  assert (TE : forall u, text_eqb u w = true <-> u = w). { intros u. unfold text_eqb. destruct (list_eq_dec ascii_dec u w); split; auto; discriminate. }
  destruct (text_eqb (chars "USER") w) eqn:E0; [|destruct (text_eqb (chars "IDENT") w) eqn:E1; [|destruct (text_eqb (chars "FCOMP") w) eqn:E2; [|destruct (text_eqb (chars "FSQR") w) eqn:E3]]];
    cbn [option_map snd].
  1-4: match goal with H : text_eqb _ _ = true |- _ => apply TE in H; rewrite <- H; clear H end; eexists; split; [unfold con_types; find_in|split; [discriminate|reflexivity]].
  destruct (list_eq_dec ascii_dec w []) as [N|N]; [now left|]. right. intros ty H. unfold con_types in H. cbn [map In fst snd] in H.
  destruct H as [H|H]; [apply (f_equal fst) in H; exfalso; apply N; symmetry; exact H|].
  repeat (destruct H as [H|H]; [apply (f_equal fst) in H; cbn [fst] in H; apply TE in H; congruence|]). destruct H.
Qed.
Lemma con_types_fun w ty ty' : In (w, ty) con_types -> In (w, ty') con_types -> ty = ty'.
Proof.
  unfold con_types. cbn [map In fst snd]. intros H H'.
  repeat (destruct H as [H|H]; [injection H as <- <-; repeat (destruct H' as [H'|H']; [try discriminate H'; injection H' as <-; reflexivity|]); destruct H'|]). destruct H.
Qed.
Section Constrain.
Variables (look : list ascii -> option tyid) (h : list op) (s : session) (t : text) (d : vname * Z + text) (a : addr) (l : loc) (enc : addr * loc -> nat) (c : cstate).
Hypotheses (R : reachable look h s) (D : denotes t d) (L : lives s d a l) (B : forall v p, cur_phase s p -> vsize v p < 2^31).
Lemma con_formula f fc : (fc = None \/ fc = Some []) ->
  PyModel.constrain enc (AText t) (PForm f) fc s c =
  if loc_eq_dec l LStepcut then (s, c, RExc (XEng BindModel.XConstraint)) else if loc_eq_dec l LRcut then (s, c, RExc (XEng BindModel.XConstraint))
  else (s, ConModel.constrain c (enc (a, l)) f (-1) ConModel.USER, RVal tt).
Proof.
  intros F. destruct (ref_lives look h s t d a l R D L B) as (hd & G & P & K & _). unfold PyModel.constrain. rewrite G. unfold place. rewrite P.
  destruct F as [-> | ->]; cbn [omap option_map].
  all: destruct (refinable hd) eqn:Q; destruct (loc_eq_dec l LStepcut); [| |try reflexivity|]; try (destruct (loc_eq_dec l LRcut)); try reflexivity; exfalso.
  all: try (destruct K as [K _]; specialize (K eq_refl); tauto).
  all: destruct K as [_ K]; assert (X : false = true) by (apply K; auto); discriminate.
Qed.
Lemma con_number n w fc : (fc = None /\ w = [] \/ fc = Some w) ->
  forall ty, In (w, ty) con_types -> PyModel.constrain enc (AText t) (PInt n) fc s c =
  if c_int n then
    if loc_eq_dec l LStepcut then (s, c, RExc (XEng BindModel.XConstraint)) else if loc_eq_dec l LRcut then (s, c, RExc (XEng BindModel.XConstraint))
    else (s, ConModel.constrain c (enc (a, l)) [] n ty, RVal tt)
  else (s, c, RExc XOverflow).
Proof.
  intros F ty T. destruct (ref_lives look h s t d a l R D L B) as (hd & G & P & K & _). unfold PyModel.constrain. rewrite G. unfold place. rewrite P. cbn [omap option_map].
  assert (X : exists k, (forall (c : cstate) b m, ConModel.constrain_int c b m k = (ConModel.constrain c b [] m ty, Ok tt)) /\
    match fc with Some ((_ :: _) as w) => fcon_number w = Some k | _ => k = 0 end).
  { destruct F as [[-> ->]| ->].
    - exists 0. split; auto. assert (ty = ConModel.IDENT) as ->; [|reflexivity]. eapply con_types_fun; eauto. unfold con_types; find_in.
    - destruct w as [|x w].
      + exists 0. split; auto. assert (ty = ConModel.IDENT) as ->; [|reflexivity]. eapply con_types_fun; eauto. unfold con_types; find_in.
      + pose proof (fcon_cases (x :: w)) as FC. destruct (fcon_number (x :: w)) as [k|].
        * exists k. split; auto. destruct FC as (ty' & I & _ & E). rewrite (con_types_fun _ _ _ T I). exact E.
        * destruct FC as [FC|FC]; [discriminate|]. exfalso. eapply FC; eauto. }
  destruct X as (k & E & M).
  assert (Y : (if c_int n then if refinable hd then let (c', r) := BindModel.b_constrain_int c (Some (enc (a, l))) n k in (s, c', from_ext r) else (s, c, RExc (XEng BindModel.XConstraint)) else (s, c, RExc XOverflow)) =
    (if c_int n then if loc_eq_dec l LStepcut then (s, c, RExc (XEng BindModel.XConstraint)) else if loc_eq_dec l LRcut then (s, c, RExc (XEng BindModel.XConstraint))
    else (s, ConModel.constrain c (enc (a, l)) [] n ty, RVal tt) else (s, c, RExc XOverflow))).
  { destruct (c_int n); auto. unfold BindModel.b_constrain_int. rewrite E. cbn [BindModel.catching from_ext].
    destruct (refinable hd) eqn:Q; destruct (loc_eq_dec l LStepcut); [| |try reflexivity|]; try (destruct (loc_eq_dec l LRcut)); try reflexivity; exfalso.
    all: try (destruct K as [K _]; specialize (K eq_refl); tauto).
    all: destruct K as [_ K]; assert (X : false = true) by (apply K; auto); discriminate. }
  destruct fc as [[|x fc]|]; try (subst k; exact Y). rewrite M. exact Y.
Qed.
Lemma con_wrong w p : w <> [] ->
  ((forall ty, ~ In (w, ty) con_types) -> PyModel.constrain enc (AText t) p (Some w) s c = (s, c, RExc XKey)) /\
  (forall ty f, In (w, ty) con_types -> PyModel.constrain enc (AText t) (PForm f) (Some w) s c = (s, c, RExc XType)).
Proof.
  intros N. destruct (ref_lives look h s t d a l R D L B) as (hd & G & P & K & _). unfold PyModel.constrain. rewrite G. destruct w as [|x w]; [congruence|].
  pose proof (fcon_cases (x :: w)) as FC. destruct (fcon_number (x :: w)) as [k|].
  - destruct FC as (ty & I & _). split; [intros H; exfalso; eapply H; eauto|reflexivity].
  - destruct FC as [FC|FC]; [discriminate|]. split; [destruct p; reflexivity|]. intros ty f I. exfalso. eapply FC; eauto.
Qed.
End Constrain.
Lemma con_outside look h s t v i p : reachable look h s -> denotes t (inl (v, i)) -> cur_phase s p -> vsize v p < 2^31 -> i < 1 \/ vsize v p < i ->
  forall enc q fc c, PyModel.constrain enc (AText t) q fc s c = (s, c, RExc (wrong_index v p i)).
Proof.
  intros R D C B O enc q fc c. unfold PyModel.constrain. rewrite (ref_indexed t v i s D). unfold wrong_index.
  destruct (c_int i) eqn:E; [|reflexivity]. apply c_int_spec in E.
  destruct (SessProof2.indexed_var look h s p v i R C B E) as [_ Q]. rewrite (Q O). destruct (vsize v p =? 0); reflexivity.
Qed.

(** constrain with nothing loaded *)
Lemma con_unassigned look h s t d : reachable look h s -> Forall (fun o => is_reset o = false) h -> denotes t d ->
  match d with inl _ => s_phases s = [] | inr n => (In n (map fst of_phase) /\ s_phases s = []) \/ (In n (map fst of_set) /\ s_sets s = []) end ->
  (match d with inl (v, i) => -2^31 <= i < 2^31 | inr n => n <> chars "stepcut" /\ n <> chars "rcut" end) ->
  forall enc c n, c_int n = true -> PyModel.constrain enc (AText t) (PInt n) None s c = (s, c, RExc (XEng BindModel.XUnassigned)).
Proof.
  intros R N D L B enc c n CN. destruct (SessProof2.unassigned_before_load look h s R N) as [U1 U2]. unfold PyModel.constrain. destruct d as [[v i]|name].
  - rewrite (ref_indexed t v i s D). apply c_int_spec in B. rewrite B. destruct (U1 L) as [U _]. rewrite (U v i). reflexivity.
  - destruct (ref_single t name s D) as (v & G & GA & K). rewrite G. rewrite CN.
    assert (X : s_sca s v = None).
    { assert (Y : SessModel.getvar (HSca v) s = Err ErrUnassigned).
      { destruct L as [[L1 L2]|[L1 L2]]; apply in_map_iff in L1; destruct L1 as ([m l] & E & L1); cbn [fst] in E; subst m; destruct K as [(l' & M & P)|(l' & M & P)];
        try (exfalso; eapply phase_not_set; eauto; fail). destruct (U1 L2) as [_ W]. eapply W; eauto. eapply (U2 L2); eauto. }
      unfold SessModel.getvar, ref_of in Y. cbn [obind] in Y. destruct (s_sca s v) as [[x l]|]; auto. unfold load in Y.
      destruct (find_phase s x) as [p|]; [destruct (loc_ok p l); discriminate|]. destruct (find_set s x) as [e|]; [destruct (ds_loc_ok l); discriminate|discriminate]. }
    assert (Rf : refinable (HSca v) = true).
    { destruct B as [B1 B2]. destruct v; auto; exfalso.
      - apply B1. destruct K as [(l & M & P)|(l & M & P)]; [|discriminate]. injection P as <-. unfold of_phase in M. cbn [map In fst snd] in M.
        repeat (destruct M as [M|M]; [try discriminate M; injection M as <-; reflexivity|]). destruct M.
      - apply B2. destruct K as [(l & M & P)|(l & M & P)]; [|discriminate]. injection P as <-. unfold of_phase in M. cbn [map In fst snd] in M.
        repeat (destruct M as [M|M]; [try discriminate M; injection M as <-; reflexivity|]). destruct M. }
    rewrite Rf. unfold place, ref_of. rewrite X. reflexivity.
Qed.
