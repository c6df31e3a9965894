(** The characters of the parameters: numbers, rows and lines. *)
From Coq Require Import Ascii String List Arith ZArith Reals Bool Lia Lra.
From Verif Require Import Base ParamModel OrderModel MatrixModel ParserModel DataModel DataSpec DataProof FmtModel FmtSpec FmtProof FmtGen FmtFinal ScatModel SaveModel ReportModel ReportSpec OutModel OutSpec OutProof OutPhase FitTextModel FitTextSpec.
Import ListNotations.
Local Open Scope R_scope.

(** * numbers *)
Lemma inf_text s : sign_text s ++ chars "inf" = chars (if s then "-inf" else "inf").
Proof. destruct s; reflexivity. Qed.
Lemma x_general_ok P x : (0 < P)%nat -> x_ok x -> x_part P x (x_general P x).
Proof. intros HP. destruct x as [d|s|]; simpl. intros H. apply general_print; auto. intros _. apply inf_text. auto. Qed.
Lemma x_fixed_ok x : x_ok x -> x_decimals x (x_fixed x).
Proof.
  destruct x as [d|s|]; simpl. intros H. destruct (fixed_print 6 d H) as (n & E & S & _). exists n. auto. intros _. apply inf_text. auto.
Qed.
Lemma lit_word (s : string) : forallb (fun c => negb (is_space c)) (chars s) && negb (paren (chars s)) = true -> chars s <> [] -> word (chars s) /\ paren (chars s) = false.
Proof.
  intros H N. apply andb_prop in H as [A B]. split; [split|]; auto. rewrite forallb_forall in A. apply Forall_forall. intros c I. specialize (A c I). destruct (is_space c); auto; discriminate.
  destruct (paren (chars s)); auto; discriminate.
Qed.
Lemma x_part_word P x t : x_part P x t -> word t /\ paren t = false.
Proof.
  destruct x as [d|s|]. intros (n & -> & OK & _). apply numeral_word; auto.
  intros E. hnf in E. rewrite E. destruct s; apply lit_word; try reflexivity; discriminate. intros E. hnf in E. rewrite E. apply lit_word; try reflexivity; discriminate.
Qed.
Lemma x_decimals_word x t : x_decimals x t -> word t /\ paren t = false.
Proof.
  destruct x as [d|s|]. intros (n & -> & OK & _). apply numeral_word; auto.
  intros E. hnf in E. rewrite E. destruct s; apply lit_word; try reflexivity; discriminate. intros E. hnf in E. rewrite E. apply lit_word; try reflexivity; discriminate.
Qed.
Lemma x_larger_spec x dx : x_larger x dx = true <-> x_matters x dx.
Proof.
  unfold x_larger, x_matters. destruct x as [v|s|]; [|split; [discriminate|intros (? & E & _); discriminate]..].
  destruct dx as [d|s|].
  - split.
    + destruct Rlt_dec as [L|]; [|discriminate]. intros _. exists v. split; auto. left. exists d. split; auto. lra.
    + intros (v' & E & [(d' & Ed & L)|Ed]); [|discriminate]. injection E as <-. injection Ed as <-. destruct Rlt_dec as [|N]; auto. exfalso. apply N. lra.
  - split. destruct s; [discriminate|]. intros _. exists v. auto. intros (v' & E & [(d' & Ed & L)|Ed]); [discriminate|]. injection Ed as ->. auto.
  - split; [discriminate|]. intros (v' & E & [(d' & Ed & L)|Ed]); discriminate.
Qed.
Lemma starts_blanks b r : Forall (fun c => c = " "%char) b -> starts_blank r -> starts_blank (b ++ r).
Proof. intros [|? ? -> F]; auto. intros _. reflexivity. Qed.

(** a value with its deviation in a field that begins with a blank *)
Lemma x_value_words f x dx : f_leading_blank f = true -> f_left f = true -> f_std_precision f = 2%nat -> x_ok x -> x_ok dx ->
  exists e, x_shown e x dx /\ good e /\ one_line (x_value_std f x dx) /\ (forall r, starts_blank (x_value_std f x dx ++ r)) /\
    forall r, starts_blank r -> words (x_value_std f x dx ++ r) = vwords e ++ words r.
Proof.
  intros LB LE P Vx Vd. pose proof (x_general_ok 6 x ltac:(lia) Vx) as Px. pose proof (x_part_word _ _ _ Px) as [W NP].
  set (s := if x_larger x dx then chars " (" ++ x_general 2 dx ++ chars ")" else match dx with Nan => chars " (NaN)" | _ => [] end).
  assert (EQ : exists b, Forall (fun c => c = " "%char) b /\ x_value_std f x dx = [" "%char] ++ x_general 6 x ++ s ++ b).
  { unfold x_value_std. rewrite LB, LE, P. fold s. destruct (_ <? _)%Z.
    - exists (blank_text (Z.to_nat (f_width f - Z.of_nat (length ([" "%char] ++ x_general 6 x ++ s))))). split.
      apply Forall_forall. intros c I. apply repeat_spec in I. auto. rewrite <- !app_assoc. auto.
    - exists []. split; auto. rewrite app_nil_r. auto. }
  destruct EQ as (b & B & ->).
  assert (S : s = [] \/ exists u, s = " "%char :: u /\ word u /\ paren u = true).
  { unfold s. destruct (x_larger x dx).
    - right. exists (chars "(" ++ x_general 2 dx ++ chars ")"). split; auto. destruct (x_part_word _ _ _ (x_general_ok 2 dx ltac:(lia) Vd)) as [[F _] _]. split; [split|]; auto; try discriminate.
      apply Forall_app; split. repeat constructor. apply Forall_app; split; auto. repeat constructor.
    - destruct dx; auto. right. exists (chars "(NaN)"). split; auto. split; [split|]; auto; try discriminate. repeat constructor. }
  exists (x_general 6 x, match s with [] => None | _ :: u => Some u end).
  assert (SH : x_shown (x_general 6 x, match s with [] => None | _ :: u => Some u end) x dx).
  { split; auto. cbn [fst snd]. unfold s. pose proof (x_larger_spec x dx) as L. split; [|split].
    - intros ->. destruct x; reflexivity.
    - intros M. apply L in M. rewrite M. exists (x_general 2 dx). split; auto. apply x_general_ok; auto.
    - intros N M. destruct (x_larger x dx). destruct M; tauto. destruct dx; auto. congruence. }
  destruct S as [-> | (u & -> & U & PU)].
  - split; [exact SH|]. split; [exact (conj W (conj NP I))|]. split; [|split].
    + rewrite !one_app. repeat split. apply blank_line; repeat constructor. apply word_line; auto. intros []. apply blank_line; auto.
    + intros r. reflexivity.
    + intros r R. rewrite <- !app_assoc. cbn [app]. change (" "%char :: x_general 6 x ++ b ++ r) with ([" "%char] ++ x_general 6 x ++ b ++ r). rewrite words_word; auto.
      rewrite words_spaces; auto. apply all_blanks; auto. repeat constructor. apply starts_blanks; auto.
  - split; [exact SH|]. split; [exact (conj W (conj NP (conj U PU)))|]. split; [|split].
    + rewrite !one_app. repeat split. apply blank_line; repeat constructor. apply word_line; auto.
      intros [Q|Q]. discriminate. exact (word_line _ U Q). apply blank_line; auto.
    + intros r. reflexivity.
    + intros r R. rewrite <- !app_assoc. rewrite words_word; auto; [|repeat constructor|reflexivity]. cbn [vwords fst snd app]. f_equal.
      change (words ([" "%char] ++ u ++ b ++ r) = u :: words r). rewrite words_word; auto. rewrite words_spaces; auto. apply all_blanks; auto. repeat constructor. apply starts_blanks; auto.
Qed.

(** * entries *)
Definition ewords (e : text * (text * option text)) : list text := fst e :: vwords (snd e).
Definition egood (e : text * (text * option text)) : Prop := paren (fst e) = false /\ good (snd e).
Lemma entries_good es : Forall egood es -> entries (concat (map ewords es)) = es.
Proof.
  induction 1 as [|[k [w [u|]]] es [K G] F IH]; auto; destruct G as (_ & _ & G).
  - cbn [map concat ewords vwords fst snd app entries]. rewrite (proj2 G). rewrite IH. auto.
  - cbn [map concat ewords vwords fst snd app entries]. destruct (concat (map ewords es)) as [|s r] eqn:E.
    + destruct es as [|[k' [a [b|]]] es]; try discriminate. auto.
    + assert (paren s = false) as ->. { destruct es as [|x es]; [discriminate E|]. pose proof (Forall_inv F) as (K' & _). cbn in E. injection E as <- _. auto. }
      rewrite IH. auto.
Qed.

(** * cells in rows *)
(** cells, each with a mark if the line ends after it *)
Definition render (cs : list (text * bool)) : text := concat (map (fun x => if snd x : bool then ln (fst x) else fst x) cs).
Fixpoint groups {A} (cs : list (A * bool)) : list (list A) :=
  match cs with
  | [] => []
  | (x, true) :: r => [x] :: groups r
  | (x, false) :: r => match groups r with [] => [[x]] | g :: gs => (x :: g) :: gs end
  end.
(** the last cell of a line, of c cells in each *)
Definition ends_line (c k rest : nat) : bool := ((S k mod c =? 0) || (rest =? 0))%nat.
Fixpoint marked {A} (c k : nat) (xs : list A) : list (A * bool) :=
  match xs with [] => [] | x :: r => (x, ends_line c k (length r)) :: marked c (S k) r end.
Lemma render_groups c k xs : render (marked c k xs) = concat (map ln (map (@concat _) (groups (marked c k xs)))).
Proof.
  revert k. induction xs as [|x xs IH]; intros k; auto. cbn [marked]. unfold render. cbn [map concat fst snd]. fold (render (marked c (S k) xs)). rewrite IH.
  unfold ends_line. destruct (S k mod c =? 0)%nat; cbn [orb groups map concat]. rewrite app_nil_r. auto.
  destruct xs as [|y xs]. cbn [length Nat.eqb orb groups marked map concat]. rewrite !app_nil_r. auto. cbn [length Nat.eqb].
  destruct (groups (marked c (S k) (y :: xs))) as [|g gs] eqn:E.
  - exfalso. cbn [marked] in E. cbn [groups] in E. destruct (ends_line c (S k) (length xs)); [discriminate|]. destruct (groups _); discriminate.
  - cbn [map concat]. unfold ln. rewrite <- !app_assoc. auto.
Qed.
Lemma groups_concat {A} (cs : list (A * bool)) : concat (groups cs) = map fst cs.
Proof.
  induction cs as [|[x b] cs IH]; auto. destruct b; cbn [groups map fst]. cbn [concat app]. rewrite IH. auto.
  destruct (groups cs) as [|g gs]. rewrite <- IH. auto. cbn [concat app] in *. rewrite IH. auto.
Qed.
Lemma marked_fst {A} c k (xs : list A) : map fst (marked c k xs) = xs.
Proof. revert k. induction xs as [|x xs IH]; intros k; auto. cbn [marked map fst]. rewrite IH. auto. Qed.
Lemma groups_size {A} c k (xs : list A) : (0 < c)%nat ->
  Forall (fun g => (0 < length g <= c)%nat) (groups (marked c k xs)) /\
  match groups (marked c k xs) with
  | [] => xs = []
  | g :: gs => (length g <= c - k mod c)%nat /\ (gs <> [] -> length g = c - k mod c)%nat /\ Forall (fun g => length g = c) (removelast gs)
  end.
Proof.
  intros C. revert k. induction xs as [|x xs IH]; intros k. split; [constructor|]. reflexivity.
  destruct (IH (S k)) as [F M]. cbn [marked groups]. assert (K : (k mod c < c)%nat) by (apply Nat.mod_upper_bound; lia).
  assert (SK : (S k mod c = 0 /\ k mod c = c - 1 \/ S k mod c = S (k mod c) /\ S (k mod c) < c)%nat).
  { pose proof (Nat.div_mod k c ltac:(lia)) as D. destruct (Nat.eq_dec (k mod c) (c - 1)) as [E|E].
    - left. split; auto. replace (S k) with ((k / c + 1) * c)%nat. apply Nat.mod_mul. lia. rewrite Nat.mul_add_distr_r, (Nat.mul_comm (k / c) c). lia.
    - right. split; [|lia]. replace (S k) with (S (k mod c) + (k / c) * c)%nat by (rewrite (Nat.mul_comm (k / c) c); lia). rewrite Nat.mod_add by lia. apply Nat.mod_small. lia. }
  unfold ends_line. destruct (Nat.eqb_spec (S k mod c) 0) as [E|E]; cbn [orb].
  - destruct SK as [[_ SK]|[SK _]]; [|lia]. split. constructor; auto. rewrite SK. split; [cbn; lia|]. split; [intros _; cbn; lia|].
    destruct (groups (marked c (S k) xs)) as [|g gs]; [constructor|]. destruct M as (M1 & M2 & M3). cbn [removelast]. destruct gs; [constructor|].
    constructor; auto. rewrite M2 by discriminate. rewrite E. lia.
  - destruct SK as [[SK _]|[SK SL]]; [lia|]. destruct (Nat.eqb_spec (length xs) 0) as [Z|Z].
    + destruct xs; [|discriminate]. cbn. split. constructor; auto. split. lia. split. congruence. constructor.
    + destruct (groups (marked c (S k) xs)) as [|g gs]. subst xs. cbn in Z. lia. destruct M as (M1 & M2 & M3). split.
      * inversion F; subst. constructor; auto. cbn [length]. lia.
      * cbn [length]. split. lia. split; auto. intros N. rewrite M2 by auto. lia.
Qed.

(** cells whose words are entries *)
Definition cell (t : text) (e : text * (text * option text)) : Prop := egood e /\ one_line t /\ words t = ewords e.
(** what follows does not change the words *)
Definition opened (t : text) : Prop := forall r, words (t ++ r) = words t ++ words r.
Lemma groups_open {A} (P : A -> Prop) cs : Forall (fun x => snd x = false -> P (fst x)) cs -> Forall (fun g => Forall P (removelast g)) (groups cs).
Proof.
  induction 1 as [|[x b] cs H F IH]. constructor. destruct b; cbn [groups]. constructor; auto. constructor.
  destruct (groups cs) as [|g gs]. repeat constructor. inversion IH; subst. constructor; auto. destruct g as [|y g]. constructor.
  change (Forall P (x :: removelast (y :: g))). constructor; auto. 
Qed.
Lemma cells_row ts es : Forall2 cell ts es -> Forall opened (removelast ts) -> one_line (concat ts) /\ words (concat ts) = concat (map ewords es).
Proof.
  induction 1 as [|t e ts es (G & O & W) F IH]; intros OP. split; [intros []|reflexivity]. cbn [map concat].
  destruct F as [|t' e' ts es C' F]. cbn [map concat]. rewrite !app_nil_r. auto.
  change (Forall opened (t :: removelast (t' :: ts))) in OP. inversion OP; subst. destruct IH as [IO IW]; auto. split. apply one_app; auto. rewrite H1, W, IW. auto.
Qed.
Lemma Forall2_concat {A B} (P : A -> B -> Prop) (gs : list (list A)) es : Forall2 P (concat gs) es -> exists ess, es = concat ess /\ Forall2 (Forall2 P) gs ess.
Proof.
  revert es. induction gs as [|g gs IH]; intros es F. inversion F; subst. exists []. split; auto.
  cbn [concat] in F. apply Forall2_app_inv_l in F as (e1 & e2 & F1 & F2 & ->). destruct (IH _ F2) as (ess & -> & FF). exists (e1 :: ess). split; auto.
Qed.
Lemma F2_len {A B} (P : A -> B -> Prop) l m : Forall2 P l m -> length l = length m.
Proof. induction 1; cbn; auto. Qed.
Lemma rows_ok c ts es : (0 < c)%nat -> Forall2 cell ts es -> Forall (fun x => snd x = false -> opened (fst x)) (marked c 0 ts) ->
  exists rows, render (marked c 0 ts) = concat (map ln rows) /\ Forall one_line rows /\ rows_of c rows /\ all_entries rows = es.
Proof.
  intros C F OP. apply groups_open in OP. set (gs := groups (marked c 0 ts)) in OP. exists (map (@concat _) gs). split. apply render_groups.
  assert (CG : concat gs = ts) by (unfold gs; rewrite groups_concat; apply marked_fst).
  destruct (groups_size c 0 ts C) as [SZ M]. fold gs in SZ, M. rewrite Nat.mod_0_l in M by lia. rewrite Nat.sub_0_r in M.
  rewrite <- CG in F. destruct (Forall2_concat _ _ _ F) as (ess & -> & FF). clearbody gs. clear F CG.
  assert (EN : Forall2 (fun g e => one_line (concat g) /\ entries (words (concat g)) = e /\ length e = length g) gs ess).
  { clear SZ M. revert OP. induction FF as [|g e gs ess Fg FF IH]; intros OP; constructor. 2: inversion OP; auto. inversion OP; subst.
    destruct (cells_row _ _ Fg) as (O & W); auto. split; auto. rewrite W. rewrite entries_good. split; auto. symmetry. eapply F2_len; eauto.
    clear -Fg. induction Fg as [|t e ts es (G & _)]; auto. }
  split; [|split; [split|]].
  - clear -EN. induction EN as [|g e gs ess (O & _) EN IH]; constructor; auto.
  - clear -SZ EN. revert SZ. induction EN as [|g e gs ess (_ & E & L) EN IH]; intros SZ; constructor; inversion SZ; subst; auto. rewrite L; exact H1.
  - assert (FC : Forall (fun g => length g = c) (removelast gs)).
    { destruct gs as [|g gs]; [constructor|]. destruct M as (_ & M2 & M3). cbn [removelast]. destruct gs; [constructor|]. constructor; auto. apply M2. discriminate. }
    clear -EN FC. revert FC. induction EN as [|g e gs ess (_ & E & L) EN IH]; intros FC. constructor. destruct gs as [|g' gs]; [constructor|].
    change (Forall (fun l => length (entries (words l)) = c) (concat g :: removelast (map (@concat _) (g' :: gs)))).
    change (Forall (fun g => length g = c) (g :: removelast (g' :: gs))) in FC. inversion FC; subst. constructor; auto.
  - unfold all_entries. clear -EN. induction EN as [|g e gs ess (_ & E & L) EN IH]; auto. cbn [map concat]. rewrite E, IH. auto.
Qed.
Lemma rows_not c rows t : rows_of c rows -> entries (words t) = [] -> ~ In t rows.
Proof. intros [F _] E I. rewrite Forall_forall in F. specialize (F _ I). cbn beta in F. rewrite E in F. cbn in F. lia. Qed.

(** * cells of parameters *)
Lemma int_free z : Forall (fun c => is_space c = false /\ c <> "("%char) (int_text z) /\ int_text z <> [].
Proof.
  unfold int_text. destruct (dec_text_pd (Z.abs z) ltac:(lia)) as (d & -> & F & _ & P). split.
  - apply Forall_app; split. destruct (z <? 0)%Z; repeat constructor; discriminate. apply digit_word; auto.
  - destruct d. destruct (plain_ne _ P); auto. destruct (z <? 0)%Z; discriminate.
Qed.
Lemma name_word z : word (int_text z ++ chars ":") /\ paren (int_text z ++ chars ":") = false.
Proof.
  destruct (int_free z) as [F N]. split; [split|].
  - apply Forall_app; split. revert F. apply Forall_impl. tauto. repeat constructor.
  - destruct (int_text z); [congruence|discriminate].
  - destruct (int_text z) as [|c q]; [congruence|]. inversion F; subst. cbn. apply Ascii.eqb_neq. tauto.
Qed.
Lemma blanks_text n : blanks (blank_text n).
Proof. apply all_blanks, Forall_forall. intros c I. apply repeat_spec in I. auto. Qed.
Lemma blank_text_line n : one_line (blank_text n).
Proof. apply blank_line, Forall_forall. intros c I. apply repeat_spec in I. auto. Qed.
Definition par_cell (last : bool) (x : Z * xdbl * xdbl) : text :=
  let '(a, v, d) := x in
  chars " " ++ pad_left 3 (int_text a) ++ chars ":" ++ x_value_std (mkFmt (if last then 0 else 20) true true 2) v d ++ (if last then [] else chars "  ").
Definition par_ok (x : Z * xdbl * xdbl) : Prop := x_ok (snd (fst x)) /\ x_ok (snd x).
Lemma par_cell_ok last x : par_ok x -> exists e, par_shown e x /\ cell (par_cell last x) e /\ (last = false -> opened (par_cell last x)).
Proof.
  destruct x as [[a v] d]. intros [V D]. cbn [fst snd] in V, D. destruct (x_value_words (mkFmt (if last then 0 else 20) true true 2) v d eq_refl eq_refl eq_refl V D) as (e & S & G & O & SB & W).
  set (vt := x_value_std _ _ _) in *.
  assert (EQ : forall r, words (par_cell last (a, v, d) ++ r) = (int_text a ++ chars ":") :: words (vt ++ (if last then [] else chars "  ") ++ r)).
  { intros r. unfold par_cell, pad_left. fold vt.
    replace ((chars " " ++ (blank_text (3 - length (int_text a)) ++ int_text a) ++ chars ":" ++ vt ++ (if last then [] else chars "  ")) ++ r)
      with ((chars " " ++ blank_text (3 - length (int_text a))) ++ (int_text a ++ chars ":") ++ vt ++ (if last then [] else chars "  ") ++ r) by (rewrite <- !app_assoc; auto).
    apply words_word; auto. apply Forall_app; split. repeat constructor. apply blanks_text. apply name_word. }
  exists (int_text a ++ chars ":", e). split; [|split].
  - split; auto.
  - split; [|split]. split. apply name_word. exact G.
    + unfold par_cell, pad_left. fold vt. rewrite !one_app. repeat split. apply one_chars; reflexivity. apply blank_text_line. apply word_line, int_text_word. apply one_chars; reflexivity. exact O. destruct last; [intros []|apply one_chars; reflexivity].
    + rewrite <- (app_nil_r (par_cell _ _)), EQ. rewrite W. cbn [ewords fst snd]. f_equal. destruct last; cbn; rewrite app_nil_r; auto. destruct last; reflexivity.
  - intros -> r. rewrite <- (app_nil_r (par_cell _ _)) at 2. rewrite !EQ. rewrite !W by reflexivity. rewrite words_spaces. cbn [app]. f_equal. cbn. rewrite app_nil_r. auto. repeat constructor.
Qed.
Definition log_cell (last : bool) (x : Z * xdbl) : text :=
  let '(a, v) := x in pad_left 4 (int_text a) ++ chars ": " ++ pad_left 9 (x_fixed v) ++ (if last then [] else chars "  ").
Lemma log_cell_ok last x : x_ok (snd x) -> exists e, log_shown e x /\ cell (log_cell last x) e /\ (last = false -> opened (log_cell last x)).
Proof.
  destruct x as [a v]. intros V. cbn [snd] in V. pose proof (x_fixed_ok v V) as D. destruct (x_decimals_word _ _ D) as [WD PD].
  assert (EQ : forall r, starts_blank ((if last then [] else chars "  ") ++ r) -> words (log_cell last (a, v) ++ r) = (int_text a ++ chars ":") :: x_fixed v :: words ((if last then [] else chars "  ") ++ r)).
  { intros r R. unfold log_cell, pad_left.
    replace (((blank_text (4 - length (int_text a)) ++ int_text a) ++ chars ": " ++ (blank_text (9 - length (x_fixed v)) ++ x_fixed v) ++ (if last then [] else chars "  ")) ++ r)
      with (blank_text (4 - length (int_text a)) ++ (int_text a ++ chars ":") ++ (chars " " ++ blank_text (9 - length (x_fixed v))) ++ x_fixed v ++ (if last then [] else chars "  ") ++ r) by (rewrite <- !app_assoc; auto).
    rewrite words_word. rewrite words_word; auto. apply Forall_app; split. repeat constructor. apply blanks_text. apply blanks_text. apply name_word. reflexivity. }
  exists (int_text a ++ chars ":", (x_fixed v, None)). split; [|split].
  - split; auto.
  - split; [|split]. split. apply name_word. exact (conj WD (conj PD I)).
    + unfold log_cell, pad_left. rewrite !one_app. repeat split. apply blank_text_line. apply word_line, int_text_word. apply one_chars; reflexivity. apply blank_text_line. apply word_line; auto. destruct last; [intros []|apply one_chars; reflexivity].
    + rewrite <- (app_nil_r (log_cell _ _)), EQ. destruct last; reflexivity. destruct last; reflexivity.
  - intros -> r. rewrite <- (app_nil_r (log_cell _ _)) at 2. rewrite !EQ by reflexivity. rewrite words_spaces by (repeat constructor). reflexivity.
Qed.
