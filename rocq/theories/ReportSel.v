(** Proofs about the list of selected atoms. *)
From Coq Require Import Ascii String List Arith ZArith Reals Bool Lia.
From Verif Require Import Base ParserModel DataModel DataSpec DataProof FmtModel FmtProof ElementTable ScatModel SaveModel ReportModel ReportSpec.
Import ListNotations.

Lemma teq a b : text_eqb a b = true <-> a = b.
Proof. unfold text_eqb. destruct (list_eq_dec ascii_dec a b); split; auto; discriminate. Qed.
Lemma tneq a b : text_eqb a b = false <-> a <> b.
Proof. unfold text_eqb. destruct (list_eq_dec ascii_dec a b); split; auto; try discriminate. contradiction. Qed.
Lemma texist a l : existsb (text_eqb a) l = true <-> In a l.
Proof. rewrite existsb_exists. split. intros (x & I & E). apply teq in E. subst; auto. intros I. exists a. split; auto. apply teq; auto. Qed.

(** * the maps *)
Lemma tm_find_add m k v a : tm_find (tm_add m k v) a = if text_eqb k a then Some (match tm_find m k with Some w => w | None => [] end ++ v) else tm_find m a.
Proof.
  induction m as [|[k' w] m IH]; cbn [tm_add tm_find].
  - destruct (text_eqb k a); auto.
  - destruct (text_eqb k' k) eqn:E.
    + apply teq in E. subst k'. cbn [tm_find]. destruct (text_eqb k a); auto.
    + cbn [tm_find]. rewrite IH. destruct (text_eqb k' a) eqn:F; destruct (text_eqb k a) eqn:G; auto.
      apply teq in F, G. subst. apply tneq in E. contradiction.
Qed.
Definition number (k : nat) : text := int_text (Z.of_nat k + 1).
Definition chosen (ign : list nat) (a : text) (x : nat * text) : bool := text_eqb (snd x) a && negb (existsb (Nat.eqb (fst x)) ign).
Definition picks (ign : list nat) (a : text) (L : list (nat * text)) : list nat := map fst (filter (chosen ign a) L).
Definition loop (ign : list nat) (L : list (nat * text)) : list (text * text) * list text :=
  fold_left (fun '(m, it) '(k, a) =>
    if existsb (Nat.eqb k) ign then (m, a :: it) else (tm_add m a (" "%char :: int_text (Z.of_nat k + 1)), it)) L ([], []).
Definition numbers (ks : list nat) : text := concat (map (fun k => " "%char :: number k) ks).
Lemma loop_spec ign L : let '(m, it) := loop ign L in
  (forall a, tm_find m a = match picks ign a L with [] => None | ks => Some (numbers ks) end) /\
  (forall a, In a it <-> exists k, In (k, a) L /\ In k ign).
Proof.
  induction L as [|[k b] L IH] using rev_ind.
  - cbn. split; auto. intros a. split; [intros []|intros (k & [] & _)].
  - unfold loop in *. rewrite fold_left_app. cbn [fold_left].
    destruct (fold_left _ L ([], [])) as [m it]. destruct IH as [F I].
    assert (PK : forall a, picks ign a (L ++ [(k, b)]) = picks ign a L ++ (if chosen ign a (k, b) then [k] else [])).
    { intros a. unfold picks. rewrite filter_app, map_app. cbn [filter]. destruct (chosen ign a (k, b)); auto. }
    assert (EX : existsb (Nat.eqb k) ign = true <-> In k ign).
    { rewrite existsb_exists. split. intros (x & X & E). apply Nat.eqb_eq in E. subst; auto. intros X. exists k. split; auto. apply Nat.eqb_refl. }
    destruct (existsb (Nat.eqb k) ign) eqn:E; split.
    + intros a. rewrite PK. unfold chosen. cbn [fst snd]. rewrite E, andb_false_r, app_nil_r. apply F.
    + intros a. cbn [In]. rewrite I. split.
      * intros [-> |(k' & A & B)]. exists k. split. apply in_app_iff; right; left; auto. apply EX; auto. exists k'. split; auto. apply in_app_iff; auto.
      * intros (k' & A & B). apply in_app_iff in A as [A|[A|[]]]. right; eauto. left. congruence.
    + intros a. rewrite PK, tm_find_add. unfold chosen. cbn [fst snd]. rewrite E. cbn [negb]. rewrite andb_true_r.
      destruct (text_eqb b a) eqn:G.
      * apply teq in G. subst b. rewrite F. destruct (picks ign a L) as [|x ks]. cbn. rewrite app_nil_r. reflexivity.
        cbn [app]. f_equal. unfold numbers. change (x :: ks ++ [k]) with ((x :: ks) ++ [k]). rewrite map_app, concat_app. cbn. rewrite app_nil_r. reflexivity.
      * rewrite app_nil_r. apply F.
    + intros a. rewrite I. split; intros (k' & A & B). exists k'; split; auto. apply in_app_iff; auto.
      apply in_app_iff in A as [A|[A|[]]]. eauto. injection A as -> ->. apply EX in B. discriminate.
Qed.

Lemma indexed_in (ats : list text) k a : In (k, a) (combine (seq 0 (length ats)) ats) <-> nth_error ats k = Some a.
Proof.
  assert (G : forall s, In (k, a) (combine (seq s (length ats)) ats) <-> (s <= k)%nat /\ nth_error ats (k - s) = Some a).
  { induction ats as [|x ats IH]; intros s; cbn [length seq combine].
    - split; [intros []|intros [_ H]; destruct (k - s)%nat; discriminate].
    - cbn [In]. rewrite IH. split.
      + intros [E|[A B]]. injection E as -> ->. split; auto. rewrite Nat.sub_diag. auto. split; [lia|]. replace (k - s)%nat with (S (k - S s)) by lia. auto.
      + intros [A B]. destruct (Nat.eq_dec s k) as [-> |NE]. left. rewrite Nat.sub_diag in B. cbn in B. congruence.
        right. split; [lia|]. replace (k - s)%nat with (S (k - S s)) in B by lia. auto. }
  rewrite G, Nat.sub_0_r. split; [tauto|]. split; auto. lia.
Qed.
Lemma picks_in ign a L k : In k (picks ign a L) <-> In (k, a) L /\ ~ In k ign.
Proof.
  unfold picks. rewrite in_map_iff. split.
  - intros ([k' b] & <- & I). apply filter_In in I as [I C]. unfold chosen in C. cbn [fst snd] in *. apply andb_true_iff in C as [C D]. apply teq in C. subst b.
    split; auto. intros X. apply negb_true_iff in D. assert (existsb (Nat.eqb k') ign = true); [|congruence]. apply existsb_exists. exists k'. split; auto. apply Nat.eqb_refl.
  - intros [I N]. exists (k, a). split; auto. apply filter_In. split; auto. unfold chosen. cbn [fst snd]. apply andb_true_iff. split. apply teq; auto.
    apply negb_true_iff. destruct (existsb (Nat.eqb k) ign) eqn:E; auto. apply existsb_exists in E as (x & X & E). apply Nat.eqb_eq in E. subst. contradiction.
Qed.
Lemma types_in ats a : In a (atom_types ats) <-> In a ats.
Proof.
  unfold atom_types. induction ats as [|b ats IH] using rev_ind. tauto. rewrite fold_left_app. cbn [fold_left].
  rewrite in_app_iff. cbn [In]. set (l := fold_left _ ats []) in *. clearbody l. destruct (existsb (text_eqb b) l) eqn:E.
  - apply texist in E. split; [tauto|]. intros [H|[-> |[]]]; tauto.
  - rewrite in_app_iff. cbn [In]. tauto.
Qed.

(** * words *)
Lemma space_blank : is_space " "%char = true. Proof. reflexivity. Qed.
Lemma digit_not_space c : is_digit c = true -> is_space c = false.
Proof. destruct c as [[] [] [] [] [] [] [] []]; cbv; congruence. Qed.
Lemma number_word k : word (number k) /\ digits_only (number k) = true.
Proof.
  unfold number, int_text. replace (Z.of_nat k + 1 <? 0)%Z with false by (symmetry; apply Z.ltb_ge; lia). cbn [sign_text app].
  destruct (dec_text_pd (Z.abs (Z.of_nat k + 1))) as (d & E & F & _ & PI). lia. rewrite E.
  assert (D : forallb (fun c => is_digit c) (print_digits d) = true).
  { clear -F. induction F as [|x d X F IH]; auto. cbn [print_digits map forallb]. unfold print_digits in *. cbn [map forallb]. rewrite IH, andb_true_r.
    do 10 (destruct x as [|x]; [reflexivity|]). lia. }
  split; auto. split.
  - apply Forall_forall. intros c C. rewrite forallb_forall in D. apply digit_not_space; auto.
  - destruct d as [|x d]. 2: discriminate. destruct (plain_ne _ PI). auto.
Qed.

Lemma number_inj j k : number j = number k -> j = k.
Proof.
  unfold number, int_text. replace (Z.of_nat j + 1 <? 0)%Z with false by (symmetry; apply Z.ltb_ge; lia).
  replace (Z.of_nat k + 1 <? 0)%Z with false by (symmetry; apply Z.ltb_ge; lia). cbn [sign_text app]. intros E.
  destruct (dec_text_pd (Z.abs (Z.of_nat j + 1))) as (d & E1 & F1 & W1 & _). lia.
  destruct (dec_text_pd (Z.abs (Z.of_nat k + 1))) as (d' & E2 & F2 & W2 & _). lia.
  assert (d = d'). { rewrite E1, E2 in E. clear -E F1 F2. revert d' F2 E. induction F1 as [|x d X F IH]; intros [|y d'] F2 E; try discriminate E; auto.
    inversion F2; subst. unfold print_digits in *. cbn [map] in E. injection E as A B. f_equal; [|apply IH; auto].
    revert A. do 10 (destruct x as [|x]; [do 10 (destruct y as [|y]; [try reflexivity; discriminate|]); lia|]). lia. }
  subst d'. lia.
Qed.
Lemma words_numbers ks l : starts_blank l -> words (numbers ks ++ l) = map number ks ++ words l.
Proof.
  intros SB. induction ks as [|k ks IH]; auto. unfold numbers. cbn [map concat]. fold (numbers ks). rewrite <- !app_assoc.
  change ((" "%char :: number k) ++ numbers ks ++ l) with ([" "%char] ++ number k ++ (numbers ks ++ l)).
  rewrite words_word. rewrite IH. reflexivity. constructor; auto. apply number_word.
  destruct ks; [exact SB|]. reflexivity.
Qed.

Definition piece (a : text) (ks : list nat) : text := chars "  " ++ upper a ++ numbers ks.
Lemma words_piece a ks l : word (upper a) -> starts_blank l -> words (piece a ks ++ l) = (upper a :: map number ks) ++ words l.
Proof.
  intros W SB. unfold piece. rewrite <- !app_assoc. rewrite words_word; auto. rewrite words_numbers by auto. reflexivity.
  repeat constructor. destruct ks; [exact SB|]. reflexivity.
Qed.
(** the groups of words of a list of pieces *)
Lemma words_pieces gs : Forall (fun g => word (upper (fst g))) gs ->
  words (concat (map (fun g => piece (fst g) (snd g)) gs)) = concat (map (fun g => upper (fst g) :: map number (snd g)) gs) /\
  starts_blank (concat (map (fun g => piece (fst g) (snd g)) gs)).
Proof.
  induction 1 as [|[a ks] gs W F [IH SB]]. split; auto. exact I. cbn [map concat fst snd]. split.
  - rewrite words_piece by auto. rewrite IH. reflexivity.
  - reflexivity.
Qed.

Lemma take_numbers_map ks ws : (match ws with [] => True | w :: _ => digits_only w = false end) ->
  take_numbers (map number ks ++ ws) = (map number ks, ws).
Proof.
  intros H. induction ks as [|k ks IH].
  - destruct ws as [|w ws]; auto. cbn. rewrite H. auto.
  - cbn [map app take_numbers]. rewrite (proj2 (number_word k)), IH. auto.
Qed.
Lemma named_skip sym no ks ws : digits_only sym = false -> (named sym no (map number ks ++ ws) <-> named sym no ws).
Proof.
  intros D. induction ks as [|k ks IH]; [tauto|]. cbn [map app]. rewrite <- IH. split; [|constructor; auto].
  intros N. inversion N; subst; auto. pose proof (proj2 (number_word k)). congruence.
Qed.
Lemma named_groups sym no gs : digits_only sym = false -> Forall (fun g => digits_only (upper (fst g)) = false) gs ->
  (named sym no (concat (map (fun g => upper (fst g) :: map number (snd g)) gs)) <->
   exists g, In g gs /\ upper (fst g) = sym /\ (snd g = [] \/ In no (map number (snd g)))).
Proof.
  intros D. induction 1 as [|[a ks] gs W F IH].
  - split. intros N; inversion N. intros (g & [] & _).
  - cbn [map concat fst snd app]. set (rest := concat _) in *.
    assert (TK : take_numbers (map number ks ++ rest) = (map number ks, rest)).
    { apply take_numbers_map. unfold rest. destruct F as [|[a' ks'] gs W' F]; cbn; auto. }
    split.
    + intros N. inversion N as [ws H E|w ws H E]; subst.
      * exists (a, ks). split. left; auto. split; auto. cbn [snd]. rewrite TK in H. cbn [fst] in H. destruct H as [H|H]; auto. destruct ks; auto. discriminate.
      * apply named_skip in H; auto. apply IH in H as (g & G & H). exists g. split; auto. right; auto.
    + intros (g & [<- |G] & E & H).
      * cbn [fst snd] in *. subst sym. apply N_here. rewrite TK. cbn [fst]. destruct H as [-> |H]; auto.
      * apply N_later. apply named_skip; auto. apply IH. eauto.
Qed.

(** * symbols of the table *)
Definition noblank (s : text) : bool := forallb (fun c => negb (is_space c)) s && negb (match s with [] => true | _ => false end).
Lemma table_ok : forallb (fun e => noblank (upper (esym e)) && negb (digits_only (upper (esym e)))) elements = true.
Proof. vm_compute. reflexivity. Qed.
Lemma table_inj : forallb (fun e => forallb (fun e' => implb (text_eqb (upper (esym e)) (upper (esym e'))) (text_eqb (esym e) (esym e'))) elements) elements = true.
Proof. vm_compute. reflexivity. Qed.
Lemma symbol_word s : symbol s -> word (upper s) /\ digits_only (upper s) = false.
Proof.
  intros (e & E & ->). pose proof table_ok as T. rewrite forallb_forall in T. specialize (T e E). apply andb_true_iff in T as [A B].
  apply negb_true_iff in B. split; auto. unfold noblank in A. apply andb_true_iff in A as [A C]. split.
  - apply Forall_forall. intros c I. rewrite forallb_forall in A. apply negb_true_iff. auto.
  - intros Z. rewrite Z in C. discriminate.
Qed.
Lemma symbol_upper s s' : symbol s -> symbol s' -> upper s = upper s' -> s = s'.
Proof.
  intros (e & E & ->) (e' & E' & ->) U. pose proof table_inj as T. rewrite forallb_forall in T. specialize (T e E). rewrite forallb_forall in T. specialize (T e' E').
  apply teq in U. rewrite U in T. cbn [implb] in T. apply teq; auto.
Qed.

(** * the list *)
Definition groups (ats : list text) (ign : list nat) : list (text * list nat) :=
  let L := combine (seq 0 (length ats)) ats in
  flat_map (fun a => match picks ign a L with [] => [] | ks => [(a, if existsb (text_eqb a) (snd (loop ign L)) then ks else [])] end) (atom_types ats).
Lemma sel_pieces ats ign : sel_text ats ign = concat (map (fun g => piece (fst g) (snd g)) (groups ats ign)).
Proof.
  unfold sel_text, groups. change (sel_loop ats ign) with (loop ign (combine (seq 0 (length ats)) ats)). set (L := combine (seq 0 (length ats)) ats).
  pose proof (loop_spec ign L) as SP. destruct (loop ign L) as [m it] eqn:E. destruct SP as [F _]. cbn [snd].
  induction (atom_types ats) as [|a ty IH]; auto. cbn [map concat flat_map]. rewrite IH, F. destruct (picks ign a L) as [|k ks]; auto.
  cbn [app map concat fst snd]. f_equal. unfold piece. destruct (existsb (text_eqb a) it); auto.
Qed.
Lemma groups_in ats ign a ks : In (a, ks) (groups ats ign) ->
  In a ats /\ (exists k, nth_error ats k = Some a /\ ~ In k ign) /\
  ((exists k, nth_error ats k = Some a /\ In k ign) /\ (forall k, In k ks <-> nth_error ats k = Some a /\ ~ In k ign) \/
   (forall k, nth_error ats k = Some a -> ~ In k ign) /\ ks = []).
Proof.
  unfold groups. set (L := combine (seq 0 (length ats)) ats). intros I. apply in_flat_map in I as (b & B & I). apply (proj1 (types_in ats b)) in B.
  pose proof (loop_spec ign L) as SP. destruct (loop ign L) as [m it]. destruct SP as [_ IT]. cbn [snd] in I.
  assert (PI : forall k, In k (picks ign b L) <-> nth_error ats k = Some b /\ ~ In k ign). { intros k. rewrite picks_in. unfold L. rewrite indexed_in. tauto. }
  destruct (picks ign b L) as [|k0 ks0]; [destruct I|]. destruct I as [E|[]]. injection E as EA EK. subst b. split; [exact B|]. split. exists k0. apply PI. left; auto.
  destruct (existsb (text_eqb a) it) eqn:X.
  - left. apply texist, IT in X as (k & X & Y). unfold L in X. apply indexed_in in X. split; eauto. subst ks. auto.
  - right. split; auto. intros k K Y. assert (In a it); [|apply texist in H; congruence]. apply IT. exists k. split; auto. apply indexed_in; auto.
Qed.
Lemma groups_has ats ign a k : nth_error ats k = Some a -> ~ In k ign -> exists ks, In (a, ks) (groups ats ign).
Proof.
  intros K N. unfold groups. set (L := combine (seq 0 (length ats)) ats).
  assert (P : In k (picks ign a L)). { apply picks_in. split; auto. apply indexed_in; auto. }
  destruct (picks ign a L) as [|k0 ks0] eqn:E; [destruct P|].
  eexists. apply in_flat_map. exists a. split. apply types_in. eapply nth_error_In; eauto. rewrite E. left; reflexivity.
Qed.
Lemma sel_named ats ign k a : Forall symbol ats -> nth_error ats k = Some a ->
  (named (upper a) (number k) (words (sel_text ats ign)) <-> ~ In k ign).
Proof.
  intros F K. rewrite Forall_forall in F. assert (SA : symbol a) by (apply F; eapply nth_error_In; eauto).
  assert (GS : forall g, In g (groups ats ign) -> symbol (fst g)). { intros [b ks] G. apply groups_in in G as (G & _). apply F; auto. }
  rewrite sel_pieces, (proj1 (words_pieces _ (proj2 (Forall_forall _ _) (fun g G => proj1 (symbol_word _ (GS g G)))))).
  rewrite named_groups. 2: apply symbol_word; auto. 2: apply Forall_forall; intros g G; apply symbol_word, GS; auto.
  split.
  - intros ([b ks] & G & U & H). cbn [fst snd] in *. assert (b = a). { apply symbol_upper; auto. apply (GS _ G). } subst b.
    apply groups_in in G as (_ & (k0 & K0 & N0) & [[(k1 & K1 & X1) KS]|[ALL E]]).
    + destruct H as [-> |H]. exfalso; exact (proj2 (KS k0) (conj K0 N0)). apply in_map_iff in H as (k' & E & I). apply number_inj in E. subst k'. apply KS in I. tauto.
    + auto.
  - intros N. destruct (groups_has ats ign a k K N) as [ks G]. exists (a, ks). split; auto. split; auto. cbn [snd].
    apply groups_in in G as (_ & _ & [[_ KS]|[_ ->]]); auto. right. apply in_map. apply KS; auto.
Qed.
