(** Lemmas for element lookup and custom scattering factors. *)
From Coq Require Import Ascii String List Arith ZArith Reals Bool Lia Lra.
From Verif Require Import Base ParserModel PdfModel DataModel DataProof ElementTable ScatModel ScatSpec.
Import ListNotations.
Local Open Scope R_scope.

(** * letters *)
Lemma all_ascii (P : ascii -> bool) : forallb P (map ascii_of_nat (seq 0 256)) = true -> forall c, P c = true.
Proof.
  intros H c. rewrite forallb_forall in H. apply H. apply in_map_iff. exists (nat_of_ascii c). split. apply ascii_nat_embedding.
  apply in_seq. pose proof (nat_ascii_bounded c). lia.
Qed.
Definition same_b (c d : ascii) : bool := Ascii.eqb (to_low c) (to_low d).
Lemma low_upper k : (k < 26)%nat -> to_low (ascii_of_nat (65 + k)) = ascii_of_nat (97 + k) /\ to_low (ascii_of_nat (97 + k)) = ascii_of_nat (97 + k).
Proof. intros H. do 26 (destruct k as [|k]; [vm_compute; auto|]). lia. Qed.
Lemma upper_form c : is_up c = true -> exists k, (k < 26)%nat /\ c = ascii_of_nat (65 + k).
Proof.
  unfold is_up. intros H. apply andb_prop in H as [A B]. apply Nat.leb_le in A, B. exists (nat_of_ascii c - 65)%nat. split. lia.
  replace (65 + (nat_of_ascii c - 65))%nat with (nat_of_ascii c) by lia. symmetry. apply ascii_nat_embedding.
Qed.
Lemma low_cases c : to_low c = c \/ exists k, (k < 26)%nat /\ c = ascii_of_nat (65 + k) /\ to_low c = ascii_of_nat (97 + k).
Proof.
  destruct (is_up c) eqn:E.
  - right. destruct (upper_form c E) as (k & H & ->). exists k. split; auto. split; auto. exact (proj1 (low_upper k H)).
  - left. unfold to_low. rewrite E. auto.
Qed.
Lemma same_letter_low c d : same_letter c d <-> to_low c = to_low d.
Proof.
  split.
  - intros [->|(k & H & [[-> ->]|[-> ->]])]; auto; destruct (low_upper k H); congruence.
  - intros H. destruct (low_cases c) as [A|(k & Hk & A & B)], (low_cases d) as [C|(j & Hj & C & D)].
    + left. congruence.
    + right. exists j. split; auto. right. split; auto. congruence.
    + right. exists k. split; auto. left. split; auto. congruence.
    + left. rewrite B, D in H. assert (k = j) as ->; [|congruence].
      assert (nat_of_ascii (ascii_of_nat (97 + k)) = nat_of_ascii (ascii_of_nat (97 + j))) as Q by congruence.
      rewrite !nat_ascii_embedding in Q by lia. lia.
Qed.
Lemma same_case_low a b : same_but_case a b <-> map to_low a = map to_low b.
Proof.
  unfold same_but_case. revert b; induction a as [|c a IH]; intros [|d b]; simpl.
  - split; auto.
  - split; intros H; inversion H.
  - split; intros H; inversion H.
  - split.
    + intros H; inversion H; subst. apply same_letter_low in H3. apply IH in H5. congruence.
    + intros H; inversion H. constructor. apply same_letter_low; auto. apply IH; auto.
Qed.
Lemma low_up c : to_low (to_up c) = to_low c.
Proof. apply Ascii.eqb_eq. revert c. apply all_ascii. vm_compute. reflexivity. Qed.
Lemma up_low c : to_up (to_low c) = to_up c.
Proof. apply Ascii.eqb_eq. revert c. apply all_ascii. vm_compute. reflexivity. Qed.
Lemma low_low c : to_low (to_low c) = to_low c.
Proof. apply Ascii.eqb_eq. revert c. apply all_ascii. vm_compute. reflexivity. Qed.
Lemma alpha_low c : is_alpha (to_low c) = is_alpha c.
Proof. apply eqb_prop. revert c. apply (all_ascii (fun c => eqb (is_alpha (to_low c)) (is_alpha c))). vm_compute. reflexivity. Qed.
Lemma low_nonalpha c : is_alpha c = false -> to_low c = c.
Proof. unfold is_alpha, to_low. intros H. apply orb_false_elim in H as [-> _]. auto. Qed.
Lemma low_std s : map to_low (std_case s) = map to_low s.
Proof.
  induction s as [|c s IH]; simpl; auto. destruct (is_alpha c); simpl.
  - rewrite low_up, map_map. f_equal. apply map_ext. apply low_low.
  - rewrite IH. auto.
Qed.
Lemma std_low s : std_case (map to_low s) = std_case s.
Proof.
  induction s as [|c s IH]; simpl; auto. rewrite alpha_low. destruct (is_alpha c) eqn:E.
  - rewrite up_low, map_map. f_equal. apply map_ext. apply low_low.
  - rewrite IH, low_nonalpha; auto.
Qed.
Lemma std_same a b : same_but_case a b -> std_case a = std_case b.
Proof. intros H. apply same_case_low in H. rewrite <- (std_low a), <- (std_low b). congruence. Qed.
Lemma std_iff q k : std_case k = k -> std_case q = k <-> same_but_case q k.
Proof.
  intros K. split.
  - intros H. apply same_case_low. rewrite <- (low_std q), H. auto.
  - intros H. rewrite <- K. apply std_same. auto.
Qed.

(** * the table *)
Definition nodup_b (l : list text) : bool := (fix go l := match l with [] => true | x :: r => negb (existsb (text_eqb x) r) && go r end) l.
Lemma nodup_ok l : nodup_b l = true -> NoDup l.
Proof.
  induction l as [|x l IH]; simpl; intros H; constructor.
  - apply andb_prop in H as [H _]. intros I. apply negb_true_iff in H. assert (existsb (text_eqb x) l = true); [|congruence].
    apply existsb_exists. exists x. split; auto. apply text_eqb_eq; auto.
  - apply IH. apply andb_prop in H. tauto.
Qed.
Lemma sym_nodup : NoDup (map esym elements). Proof. apply nodup_ok. vm_compute. reflexivity. Qed.
Lemma name_nodup : NoDup (map ename elements). Proof. apply nodup_ok. vm_compute. reflexivity. Qed.
Lemma keys_std : forall e, In e elements -> std_case (esym e) = esym e /\ std_case (ename e) = ename e /\
  esym e <> chars "2-H" /\ esym e <> chars "3-H" /\ ename e <> chars "2-H" /\ ename e <> chars "3-H".
Proof.
  assert (forallb (fun e => text_eqb (std_case (esym e)) (esym e) && text_eqb (std_case (ename e)) (ename e) && negb (text_eqb (esym e) (chars "2-H"))
    && negb (text_eqb (esym e) (chars "3-H")) && negb (text_eqb (ename e) (chars "2-H")) && negb (text_eqb (ename e) (chars "3-H"))) elements = true) as H by (vm_compute; reflexivity).
  rewrite forallb_forall in H. intros e I. specialize (H e I). rewrite !andb_true_iff, !negb_true_iff in H.
  destruct H as (((((A & B) & C) & D) & E) & F). apply text_eqb_eq in A, B.
  assert (forall a b, text_eqb a b = false -> a <> b) as K. { intros a b N ->. assert (text_eqb b b = true) by (apply text_eqb_eq; auto). congruence. }
  auto 10.
Qed.
Lemma sym_name_apart : forall e e', In e elements -> In e' elements -> esym e <> ename e'.
Proof.
  assert (forallb (fun x => negb (existsb (text_eqb x) (map ename elements))) (map esym elements) = true) as H by (vm_compute; reflexivity).
  rewrite forallb_forall in H. intros e e' I I' E. specialize (H (esym e) (in_map _ _ _ I)). apply negb_true_iff in H.
  assert (existsb (text_eqb (esym e)) (map ename elements) = true); [|congruence].
  apply existsb_exists. exists (ename e'). split. apply in_map; auto. apply text_eqb_eq; auto.
Qed.
Lemma alias_D : exists e, In e elements /\ esym e = chars "D" /\ lookup_in (sym_plain elements) elements (chars "D") = Some e.
Proof. eexists. split; [|split; [|vm_compute; reflexivity]]. 2: reflexivity. unfold elements. do 2 right. left. reflexivity. Qed.
Lemma alias_T : exists e, In e elements /\ esym e = chars "T" /\ lookup_in (sym_plain elements) elements (chars "T") = Some e.
Proof. eexists. split; [|split; [|vm_compute; reflexivity]]. 2: reflexivity. unfold elements. do 3 right. left. reflexivity. Qed.

Lemma nodup_inj {A} (f : A -> text) l a b : NoDup (map f l) -> In a l -> In b l -> f a = f b -> a = b.
Proof.
  induction l as [|x l IH]; simpl; intros N Ia Ib E; [tauto|]. inversion N; subst.
  destruct Ia as [->|Ia], Ib as [->|Ib]; auto.
  - exfalso. apply H1. rewrite E. apply in_map. auto.
  - exfalso. apply H1. rewrite <- E. apply in_map. auto.
Qed.
Lemma find_first_ok f tbl k e : NoDup (map f tbl) -> find_first f (rev tbl) k = Some e <-> In e tbl /\ f e = k.
Proof.
  intros N. unfold find_first. split.
  - intros H. apply find_some in H as [I E]. apply text_eqb_eq in E. apply in_rev in I. auto.
  - intros [I E]. destruct (find (fun e0 => text_eqb (f e0) k) (rev tbl)) as [e'|] eqn:Q.
    + apply find_some in Q as [I' E']. apply text_eqb_eq in E'. apply in_rev in I'. f_equal. eapply nodup_inj; eauto. congruence.
    + exfalso. eapply find_none in Q; [|apply in_rev; rewrite rev_involutive; exact I]. cbv beta in Q.
      assert (text_eqb (f e) k = true) by (apply text_eqb_eq; auto). congruence.
Qed.
Lemma find_first_none f tbl k : find_first f (rev tbl) k = None <-> forall e, In e tbl -> f e <> k.
Proof.
  unfold find_first. split.
  - intros H e I E. eapply find_none in H; [|apply in_rev; rewrite rev_involutive; exact I]. cbv beta in H.
    assert (text_eqb (f e) k = true) by (apply text_eqb_eq; auto). congruence.
  - intros H. destruct (find (fun e0 => text_eqb (f e0) k) (rev tbl)) as [e'|] eqn:Q; auto.
    apply find_some in Q as [I E]. apply text_eqb_eq in E. apply in_rev in I. exfalso. eapply H; eauto.
Qed.
Lemma teq_refl a : text_eqb a a = true. Proof. apply text_eqb_eq; auto. Qed.
Lemma teq_neq a b : a <> b -> text_eqb a b = false.
Proof. intros H. destruct (text_eqb a b) eqn:E; auto. apply text_eqb_eq in E. tauto. Qed.

(** keys of symbol_index *)
Definition sym_key (e : element) (k : text) : Prop :=
  esym e = k \/ (k = chars "2-H" /\ esym e = chars "D") \/ (k = chars "3-H" /\ esym e = chars "T").
Lemma symbol_index_ok k e : symbol_index elements k = Some e <-> In e elements /\ sym_key e k.
Proof.
  unfold symbol_index, symbol_index0. destruct alias_T as (eT & IT & ET & QT), alias_D as (eD & ID & ED & QD). rewrite QT, QD.
  destruct (text_eqb k (chars "3-H")) eqn:E3; [|destruct (text_eqb k (chars "2-H")) eqn:E2].
  - apply text_eqb_eq in E3. subst. split.
    + intros H. inversion H; subst. split; auto. right; right; auto.
    + intros (I & [K|[[K _]|[_ K]]]). destruct (keys_std _ I) as (_ & _ & _ & N & _). contradiction. discriminate.
      f_equal. eapply (nodup_inj esym); eauto using sym_nodup. congruence.
  - apply text_eqb_eq in E2. subst. split.
    + intros H. inversion H; subst. split; auto. right; left; auto.
    + intros (I & [K|[[_ K]|[K _]]]). destruct (keys_std _ I) as (_ & _ & N & _). contradiction.
      f_equal. eapply (nodup_inj esym); eauto using sym_nodup. congruence. discriminate.
  - unfold sym_plain. rewrite find_first_ok by apply sym_nodup. unfold sym_key. split.
    + intros [I K]. auto.
    + intros (I & [K|[[K _]|[K _]]]); auto; subst; rewrite teq_refl in *; discriminate.
Qed.
Lemma symbol_index_none k : symbol_index elements k = None -> forall e, In e elements -> ~ sym_key e k.
Proof. intros H e I K. assert (symbol_index elements k = Some e) by (apply symbol_index_ok; auto). congruence. Qed.

Lemma means_keys q e : means q e <-> In e elements /\ (sym_key e (std_case q) \/ ename e = std_case q).
Proof.
  unfold means, sym_key. split.
  - intros (I & H). split; auto. destruct (keys_std e I) as (S & N & _).
    destruct H as [H|[H|[[H E]|[H E]]]].
    + left. left. symmetry. apply std_iff; auto.
    + right. symmetry. apply std_iff; auto.
    + left. right. left. split. apply std_iff; auto. unfold esym. rewrite E. auto.
    + left. right. right. split. apply std_iff; auto. unfold esym. rewrite E. auto.
  - intros (I & H). split; auto. destruct (keys_std e I) as (S & N & _).
    assert (forall s, esym e = chars s -> el_symbol e = s) as K.
    { intros s Q. unfold esym, chars in Q. rewrite <- (string_of_list_ascii_of_string (el_symbol e)), <- (string_of_list_ascii_of_string s). congruence. }
    destruct H as [[H|[[H E]|[H E]]]|H].
    + left. apply std_iff; auto.
    + right. right. left. split; auto. apply std_iff; auto.
    + right. right. right. split; auto. apply std_iff; auto.
    + right. left. apply std_iff; auto.
Qed.
Lemma lookup_ok q e : pt_lookup elements q = Some e <-> means q e.
Proof.
  rewrite means_keys. unfold pt_lookup, lookup_in. cbv zeta. destruct (symbol_index elements (std_case q)) as [e'|] eqn:E.
  - pose proof E as E'. apply symbol_index_ok in E' as [I' K']. split.
    + intros H. inversion H; subst. auto.
    + intros (I & [K|K]).
      * assert (symbol_index elements (std_case q) = Some e) by (apply symbol_index_ok; auto). congruence.
      * exfalso. destruct (keys_std e I) as (_ & _ & _ & _ & N2 & N3).
        destruct K' as [K'|[[K' _]|[K' _]]]; [|congruence..]. apply (sym_name_apart e' e); auto. congruence.
  - unfold name_index. rewrite find_first_ok by apply name_nodup. split.
    + intros [I K]. auto.
    + intros (I & [K|K]); auto. exfalso. eapply symbol_index_none; eauto.
Qed.
Lemma lookup_none q : pt_lookup elements q = None <-> forall e, ~ means q e.
Proof.
  split. intros H e M. apply lookup_ok in M. congruence.
  intros H. destruct (pt_lookup elements q) as [e|] eqn:E; auto. apply lookup_ok in E. exfalso. eapply H; eauto.
Qed.
Lemma means_unique q e e' : means q e -> means q e' -> e = e'.
Proof. intros A B. apply lookup_ok in A, B. congruence. Qed.
Lemma means_case q q' e : same_but_case q q' -> means q e -> means q' e.
Proof. intros S M. apply means_keys. apply means_keys in M. rewrite <- (std_same _ _ S). auto. Qed.
Lemma same_refl a : same_but_case a a. Proof. apply same_case_low; auto. Qed.
Lemma same_sym a b : same_but_case a b -> same_but_case b a. Proof. rewrite !same_case_low. auto. Qed.
Lemma lookup_case q q' : same_but_case q q' -> pt_lookup elements q = pt_lookup elements q'.
Proof.
  intros S. destruct (pt_lookup elements q) as [e|] eqn:E.
  - symmetry. apply lookup_ok. apply lookup_ok in E. eapply means_case; eauto.
  - symmetry. apply lookup_none. intros e M. rewrite lookup_none in E. apply (E e). eapply means_case; eauto. apply same_sym; auto.
Qed.
Lemma lookup_stored e : In e elements -> pt_lookup elements (chars (el_symbol e)) = Some e /\ pt_lookup elements (chars (el_name e)) = Some e.
Proof. intros I. split; apply lookup_ok; split; auto using same_refl. Qed.

(** * the table of a phase *)
Definition eff (t : ltable) (e : element) : R * R := match lt_find t (esym e) with Some v => v | None => std_sf e end.
Lemma find_app t k k' v : lt_find (t ++ [(k, v)]) k' = match lt_find t k' with Some x => Some x | None => if text_eqb k k' then Some v else None end.
Proof. induction t as [|[a x] t IH]; simpl; auto. destruct (text_eqb a k'); auto. Qed.
Lemma find_set t k v k' : lt_find (lt_set t k v) k' = if text_eqb k k' then Some v else lt_find t k'.
Proof.
  induction t as [|[a x] t IH]; simpl; auto. destruct (text_eqb a k) eqn:E; simpl.
  - apply text_eqb_eq in E. subst. destruct (text_eqb k k'); auto.
  - rewrite IH. destruct (text_eqb a k') eqn:F; auto. apply text_eqb_eq in F. subst. destruct (text_eqb k k') eqn:G; auto.
    apply text_eqb_eq in G. subst. rewrite teq_refl in E. discriminate.
Qed.
Lemma local_ok t e : In e elements -> exists t', local_symbol elements t (esym e) = Ok (eff t e, t') /\ lt_find t' (esym e) = Some (eff t e) /\ forall e', In e' elements -> eff t' e' = eff t e'.
Proof.
  intros I. unfold local_symbol, eff. destruct (lt_find t (esym e)) as [v|] eqn:E.
  - exists t. auto.
  - assert (symbol_index elements (esym e) = Some e) as -> by (apply symbol_index_ok; split; auto; left; auto).
    eexists. split; [reflexivity|]. split. rewrite find_app, E, teq_refl. auto.
    intros e' I'. rewrite find_app. destruct (lt_find t (esym e')); auto. destruct (text_eqb (esym e) (esym e')) eqn:F; auto.
    apply text_eqb_eq in F. assert (e = e') by (eapply (nodup_inj esym); eauto using sym_nodup). congruence.
Qed.
Lemma look_ok t q e : means q e -> exists t', local_lookup elements t q = Ok (esym e, eff t e, t') /\ lt_find t' (esym e) = Some (eff t e) /\ forall e', In e' elements -> eff t' e' = eff t e'.
Proof.
  intros M. unfold local_lookup. pose proof M as [I _]. apply lookup_ok in M. rewrite M.
  destruct (local_ok t e I) as (t' & Q & F & H). exists t'. rewrite Q. auto.
Qed.
Lemma look_bad t q : (forall e, ~ means q e) -> local_lookup elements t q = Err ErrValue.
Proof. intros H. apply lookup_none in H. unfold local_lookup. rewrite H. auto. Qed.

Definition rad_b (tp : ascii) : option radiation :=
  if Ascii.eqb tp "n" || Ascii.eqb tp "N" then Some Neutron else if Ascii.eqb tp "x" || Ascii.eqb tp "X" then Some XRay else None.
Lemma rad_ok tp r : radiation_of tp r <-> rad_b tp = Some r.
Proof.
  unfold rad_b, radiation_of. destruct (Ascii.eqb_spec tp "n"), (Ascii.eqb_spec tp "N"), (Ascii.eqb_spec tp "x"), (Ascii.eqb_spec tp "X"); subst; simpl;
    destruct r; split; intros H; try discriminate; try tauto; try (destruct H; congruence); auto.
Qed.
Lemma radiation_eq (a b : radiation) : {a = b} + {a <> b}. Proof. decide equality. Defined.
Definition pick (r : radiation) (v : R * R) : R := match r with XRay => fst v | Neutron => snd v end.
Lemma sf_ok tp v : sf tp v = match rad_b tp with Some r => Ok (pick r v) | None => Err ErrPlain end.
Proof.
  unfold sf, rad_b. destruct (Ascii.eqb_spec tp "n"), (Ascii.eqb_spec tp "N"), (Ascii.eqb_spec tp "x"), (Ascii.eqb_spec tp "X"); subst; simpl; auto; discriminate.
Qed.
Lemma eff_set t e v e' : In e elements -> In e' elements -> (eff (lt_set t (esym e) v) e' = v /\ e' = e) \/ (eff (lt_set t (esym e) v) e' = eff t e' /\ e' <> e).
Proof.
  intros I I'. assert (eff (lt_set t (esym e) v) e' = if text_eqb (esym e) (esym e') then v else eff t e') as ->.
  { unfold eff. rewrite find_set. destruct (text_eqb (esym e) (esym e')); auto. }
  destruct (text_eqb (esym e) (esym e')) eqn:F.
  - left. apply text_eqb_eq in F. split; auto. eapply (nodup_inj esym); eauto using sym_nodup.
  - right. split; auto. intros ->. rewrite teq_refl in F. discriminate.
Qed.

Lemma set_eff t tp q v e r : In e elements ->
  (means q e /\ radiation_of tp r -> pick r (eff (fst (set_scat elements t tp q v)) e) = v) /\
  (~ means q e \/ ~ radiation_of tp r -> pick r (eff (fst (set_scat elements t tp q v)) e) = pick r (eff t e)).
Proof.
  intros I. unfold set_scat. destruct (pt_lookup elements q) as [d|] eqn:E.
  - apply lookup_ok in E. destruct (look_ok t q d E) as (t' & Q & F & H). rewrite Q. pose proof E as [Id _].
    rewrite (rad_ok tp r). unfold rad_b.
    assert (means q e <-> e = d) as Me by (split; [intros M; eapply means_unique; eauto|intros ->; auto]). rewrite Me.
    destruct (Ascii.eqb tp "n" || Ascii.eqb tp "N")%bool; [|destruct (Ascii.eqb tp "x" || Ascii.eqb tp "X")%bool].
    + destruct (local_ok t' d Id) as (t2 & Q2 & F2 & H2). rewrite Q2. cbn [fst].
      destruct (eff_set t2 d (fst (eff t' d), v) e Id I) as [[-> ->]|[-> Ne]].
      * split. intros [_ Er]. inversion Er; subst. auto. intros [N|N]. tauto. destruct r; simpl; try tauto. rewrite H by auto. auto.
      * split. tauto. intros _. rewrite H2, H by auto. auto.
    + destruct (local_ok t' d Id) as (t2 & Q2 & F2 & H2). rewrite Q2. cbn [fst].
      destruct (eff_set t2 d (v, snd (eff t' d)) e Id I) as [[-> ->]|[-> Ne]].
      * split. intros [_ Er]. inversion Er; subst. auto. intros [N|N]. tauto. destruct r; simpl; try tauto. rewrite H by auto. auto.
      * split. tauto. intros _. rewrite H2, H by auto. auto.
    + cbn [fst]. split. intros [_ X]; discriminate. intros _. rewrite H by auto. auto.
  - rewrite lookup_none in E. rewrite look_bad by auto. cbn [fst]. split; auto. intros [M _]. exfalso. eapply E; eauto.
Qed.
Lemma reset_eff t q e r : In e elements ->
  (means q e -> pick r (eff (fst (reset_scat elements t q)) e) = standard e r) /\
  (~ means q e -> pick r (eff (fst (reset_scat elements t q)) e) = pick r (eff t e)).
Proof.
  intros I. unfold reset_scat. destruct (pt_lookup elements q) as [d|] eqn:E.
  - apply lookup_ok in E. destruct (look_ok t q d E) as (t' & Q & F & H). rewrite Q. pose proof E as [Id _].
    assert (symbol_index elements (esym d) = Some d) as -> by (apply symbol_index_ok; split; auto; left; auto). rewrite F. cbn [fst].
    destruct (eff_set t' d (std_sf d) e Id I) as [[-> ->]|[-> Ne]].
    + split; [|tauto]. intros _. destruct r; reflexivity.
    + split. intros M. exfalso. apply Ne. eapply means_unique; eauto. intros _. rewrite H by auto. auto.
  - rewrite lookup_none in E. rewrite look_bad by auto. cbn [fst]. split; auto. intros M. exfalso. eapply E; eauto.
Qed.

(** * histories *)
Lemma upd_len {A} (l : list A) n x : length (upd_nth l n x) = length l.
Proof. revert n; induction l; intros [|n]; simpl; auto. Qed.
Lemma upd_nth_error {A} (l : list A) n x m : nth_error (upd_nth l n x) m = if (n =? m)%nat then match nth_error l m with Some _ => Some x | None => None end else nth_error l m.
Proof.
  revert n m; induction l as [|a l IH]; intros [|n] [|m]; simpl; auto.
  - destruct (n =? m)%nat; auto.
Qed.
Definition scat_inv (l : list ltable) (h : list scat_op) : Prop :=
  length l = phases_of h /\ forall p t e r, nth_error l p = Some t -> In e elements -> factor_is p e r h (pick r (eff t e)).
Lemma step_inv l h o : scat_inv l h -> scat_inv (scat_step elements l o) (o :: h).
Proof.
  intros [L H]. destruct o as [| |p tp q v|p q|p tp q]; cbn [scat_step].
  - split. rewrite app_length. simpl. lia. intros p t e r N I. destruct (Nat.lt_ge_cases p (length l)) as [Lt|Ge].
    + rewrite nth_error_app1 in N by auto. apply FI_new. eauto.
    + rewrite nth_error_app2 in N by auto. destruct (p - length l)%nat as [|k] eqn:Ek; [|destruct k; discriminate]. simpl in N. inversion N; subst.
      assert (pick r (eff [] e) = standard e r) as -> by (destruct r; reflexivity).
      (* no call so far can have named this phase *)
      apply FI_new. clear N Ek H. assert (phases_of h <= p)%nat as K by lia. clear L Ge. 
      induction h as [|o h IHh]; [apply FI_start|]. destruct o as [| |p' tp q v|p' q|p' tp q]; simpl in K.
      * apply FI_new, IHh. lia.
      * apply FI_clear.
      * apply FI_set_other; auto.
      * destruct (Nat.eq_dec p' p); [|apply FI_reset_other; auto]. subst p'.
        destruct (pt_lookup elements q) as [d|] eqn:E.
        { apply lookup_ok in E. destruct (list_eq_dec ascii_dec (esym d) (esym e)) as [Es|Es].
          - assert (d = e) by (destruct E; eapply (nodup_inj esym); eauto using sym_nodup). subst. apply FI_reset. auto.
          - apply FI_reset_other; auto. right. intros M. apply Es. f_equal. eapply means_unique; eauto. }
        { rewrite lookup_none in E. apply FI_reset_other; auto. }
      * apply FI_get; auto.
  - split; auto. intros p t e r N I. destruct p; discriminate.
  - destruct (nth_error l p) as [t|] eqn:E.
    + split. rewrite upd_len. auto. intros p' t' e r N I. rewrite upd_nth_error in N. destruct (Nat.eqb_spec p p') as [->|Ne].
      * rewrite E in N. inversion N; subst t'. clear N. destruct (set_eff t tp q v e r I) as [A B].
        destruct (pt_lookup elements q) as [d|] eqn:Eq.
        { apply lookup_ok in Eq. destruct (list_eq_dec ascii_dec (esym d) (esym e)) as [Es|Es].
          - assert (d = e) by (destruct Eq; eapply (nodup_inj esym); eauto using sym_nodup). subst.
            destruct (rad_b tp) as [r'|] eqn:Er; [destruct (radiation_eq r' r) as [->|Nr]|].
            + rewrite A by (split; auto; apply rad_ok; auto). apply FI_set; auto. rewrite <- L. apply nth_error_Some. congruence. apply rad_ok; auto.
            + assert (~ radiation_of tp r) by (rewrite rad_ok; congruence). rewrite B by auto. apply FI_set_other; eauto.
            + assert (~ radiation_of tp r) by (rewrite rad_ok; congruence). rewrite B by auto. apply FI_set_other; eauto.
          - assert (~ means q e) by (intros M; apply Es; f_equal; eapply means_unique; eauto). rewrite B by auto. apply FI_set_other; eauto. }
        { rewrite lookup_none in Eq. rewrite B by auto. apply FI_set_other; eauto. }
      * apply FI_set_other; eauto.
    + split; auto. intros p' t' e r N I. apply FI_set_other; eauto. left. intros ->. congruence.
  - destruct (nth_error l p) as [t|] eqn:E.
    + split. rewrite upd_len. auto. intros p' t' e r N I. rewrite upd_nth_error in N. destruct (Nat.eqb_spec p p') as [->|Ne].
      * rewrite E in N. inversion N; subst t'. clear N. destruct (reset_eff t q e r I) as [A B].
        destruct (pt_lookup elements q) as [d|] eqn:Eq.
        { apply lookup_ok in Eq. destruct (list_eq_dec ascii_dec (esym d) (esym e)) as [Es|Es].
          - assert (d = e) by (destruct Eq; eapply (nodup_inj esym); eauto using sym_nodup). subst. rewrite A by auto. apply FI_reset; auto.
          - assert (~ means q e) by (intros M; apply Es; f_equal; eapply means_unique; eauto). rewrite B by auto. apply FI_reset_other; eauto. }
        { rewrite lookup_none in Eq. rewrite B by auto. apply FI_reset_other; eauto. }
      * apply FI_reset_other; eauto.
    + split; auto. intros p' t' e r N I. apply FI_reset_other; eauto. left. intros ->. congruence.
  - destruct (nth_error l p) as [t|] eqn:E.
    + destruct (pt_lookup elements q) as [d|] eqn:Eq.
      * apply lookup_ok in Eq. destruct (look_ok t q d Eq) as (t1 & Q & _ & K). rewrite Q.
        split. rewrite upd_len. auto. intros p' t' e r N I. rewrite upd_nth_error in N. destruct (Nat.eqb_spec p p') as [->|Ne].
        { rewrite E in N. inversion N; subst t'. rewrite K by auto. apply FI_get; eauto. }
        { apply FI_get; eauto. }
      * rewrite lookup_none in Eq. rewrite look_bad by auto. split; auto. intros p' t' e r N I. apply FI_get; eauto.
    + split; auto. intros p' t' e r N I. apply FI_get; eauto.
Qed.
Lemma run_inv ops : forall l h, scat_inv l h -> scat_inv (fold_left (scat_step elements) ops l) (rev ops ++ h).
Proof.
  induction ops as [|o ops IH]; intros l h H; cbn [fold_left rev app]; auto.
  rewrite <- app_assoc. simpl. apply IH. apply step_inv. auto.
Qed.
Lemma run_ok ops : scat_inv (scat_run elements ops) (rev ops).
Proof. rewrite <- (app_nil_r (rev ops)). apply run_inv. split; auto. intros p t e r N _. destruct p; discriminate. Qed.

Lemma factor_unique p e r h v v' : factor_is p e r h v -> factor_is p e r h v' -> v = v'.
Proof.
  intros A; revert v'; induction A; intros w B; inversion B; subst; auto; try (exfalso; intuition lia).
Qed.
Lemma get_ok ops p t tp q e r : nth_error (scat_run elements ops) p = Some t -> means q e -> radiation_of tp r ->
  exists v, get_scat elements t tp q = Ok v /\ factor_is p e r (rev ops) v.
Proof.
  intros N M Rr. destruct (run_ok ops) as [_ H]. pose proof M as [I _]. specialize (H p t e r N I).
  destruct (look_ok t q e M) as (t' & Q & _ & _). exists (pick r (eff t e)). split; auto.
  unfold get_scat. rewrite Q, sf_ok. apply rad_ok in Rr. rewrite Rr. auto.
Qed.
Lemma get_bad t tp q : (forall e, ~ means q e) \/ (forall r, ~ radiation_of tp r) -> get_scat elements t tp q = Err ErrValue.
Proof.
  intros [H|H]; unfold get_scat. rewrite look_bad; auto.
  destruct (pt_lookup elements q) as [d|] eqn:Eq.
  - apply lookup_ok in Eq. destruct (look_ok t q d Eq) as (t1 & Q & _ & K). rewrite Q, sf_ok.
    destruct (rad_b tp) as [r|] eqn:E; auto. exfalso. apply (H r). apply rad_ok; auto.
  - rewrite lookup_none in Eq. rewrite look_bad; auto.
Qed.
Lemma set_result t tp q v : snd (set_scat elements t tp q v) = Ok tt <-> (exists e, means q e) /\ exists r, radiation_of tp r.
Proof.
  unfold set_scat. destruct (pt_lookup elements q) as [d|] eqn:Eq.
  - apply lookup_ok in Eq. destruct (look_ok t q d Eq) as (t' & Q & F & H). rewrite Q. pose proof Eq as [Id _].
    destruct (local_ok t' d Id) as (t2 & Q2 & F2 & H2). 
    assert (forall r, radiation_of tp r <-> rad_b tp = Some r) as Rr by (intros; apply rad_ok). unfold rad_b in Rr.
    destruct (Ascii.eqb tp "n" || Ascii.eqb tp "N")%bool; [|destruct (Ascii.eqb tp "x" || Ascii.eqb tp "X")%bool]; try rewrite Q2; cbn [snd].
    + split; auto. intros _. split; eauto. exists Neutron. apply Rr. auto.
    + split; auto. intros _. split; eauto. exists XRay. apply Rr. auto.
    + split. discriminate. intros (_ & r & K). apply Rr in K. discriminate.
  - rewrite lookup_none in Eq. rewrite look_bad by auto. cbn [snd]. split. discriminate. intros ((e & M) & _). exfalso. eapply Eq; eauto.
Qed.
Lemma reset_result t q : snd (reset_scat elements t q) = Ok tt <-> exists e, means q e.
Proof.
  unfold reset_scat. destruct (pt_lookup elements q) as [d|] eqn:E.
  - apply lookup_ok in E. destruct (look_ok t q d E) as (t' & Q & F & H). rewrite Q. pose proof E as [Id _].
    assert (symbol_index elements (esym d) = Some d) as -> by (apply symbol_index_ok; split; auto; left; auto). rewrite F. cbn [snd]. split; eauto.
  - rewrite lookup_none in E. rewrite look_bad by auto. cbn [snd]. split. discriminate. intros (e & M). exfalso. eapply E; eauto.
Qed.
Lemma run_len ops : length (scat_run elements ops) = phases_of (rev ops).
Proof. apply run_ok. Qed.
