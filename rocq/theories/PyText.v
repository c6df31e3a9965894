(** The str methods of PyModel.v. *)
From Coq Require Import Ascii String.
From Coq Require Import List ZArith Reals Bool Lia.
From Verif Require Import Base ParserModel ParserLex DataSpec DataProof PyModel PySpec.
Import ListNotations.
Local Open Scope char_scope.

(** * strip *)
Lemma lstrip_all f b t : Forall (fun c => f c = true) b -> lstrip f (b ++ t) = lstrip f t.
Proof. induction 1 as [|c b H _ IH]; cbn; auto. rewrite H. exact IH. Qed.
Lemma lstrip_inv f t : exists b, t = b ++ lstrip f t /\ Forall (fun c => f c = true) b.
Proof.
  induction t as [|c t (b & E & F)]; cbn. exists []; auto. destruct (f c) eqn:H.
  - exists (c :: b). split; [cbn; now f_equal|constructor; auto].
  - exists []; auto.
Qed.
(** a text whose ends are not stripped *)
Definition firm (f : ascii -> bool) (w : text) : Prop :=
  exists c r r' c', w = c :: r /\ w = r' ++ [c'] /\ f c = false /\ f c' = false.
Lemma strip_firm f b1 w b2 : Forall (fun c => f c = true) b1 -> firm f w -> Forall (fun c => f c = true) b2 -> strip f (b1 ++ w ++ b2) = w.
Proof.
  intros F1 (c & r & r' & c' & E1 & E2 & N1 & N2) F2. unfold strip. rewrite lstrip_all by auto.
  assert (L : lstrip f (w ++ b2) = w ++ b2). { rewrite E1. cbn. now rewrite N1. }
  rewrite L, rev_app_distr, lstrip_all by now apply Forall_rev.
  assert (L2 : lstrip f (rev w) = rev w). { rewrite E2, rev_app_distr. cbn. now rewrite N2. }
  now rewrite L2, rev_involutive.
Qed.
Lemma strip_inv f t : exists b1 b2, t = b1 ++ strip f t ++ b2 /\ Forall (fun c => f c = true) b1 /\ Forall (fun c => f c = true) b2.
Proof.
  destruct (lstrip_inv f t) as (b1 & E1 & F1). destruct (lstrip_inv f (rev (lstrip f t))) as (b2 & E2 & F2).
  exists b1, (rev b2). split; [|split; auto; now apply Forall_rev]. rewrite E1 at 1. f_equal. unfold strip.
  rewrite <- rev_app_distr, <- E2. now rewrite rev_involutive.
Qed.

(** * split *)
Lemma split_none c t : ~ In c t -> split c t = [t].
Proof.
  induction t as [|h t IH]; cbn; auto. intros N. destruct (Ascii.eqb_spec h c) as [->|D]. exfalso; auto.
  rewrite IH; auto.
Qed.
Lemma split_one c a b : ~ In c a -> ~ In c b -> split c (a ++ c :: b) = [a; b].
Proof.
  induction a as [|h a IH]; cbn; intros N M.
  - rewrite Ascii.eqb_refl, split_none; auto.
  - destruct (Ascii.eqb_spec h c) as [->|D]. exfalso; auto. rewrite IH; auto.
Qed.
Lemma split_ne c t : split c t <> [].
Proof. destruct t as [|h t]; cbn; try discriminate. destruct (Ascii.eqb h c); try discriminate. destruct (split c t); discriminate. Qed.
Lemma split_single c t a : split c t = [a] -> t = a /\ ~ In c t.
Proof.
  revert a. induction t as [|h t IH]; cbn; intros a E. injection E as <-. auto.
  destruct (Ascii.eqb_spec h c) as [->|D].
  - injection E as _ E. exfalso. exact (split_ne _ _ E).
  - pose proof (split_ne c t) as X. destruct (split c t) as [|p q]; [contradiction|]. injection E as <- ->.
    destruct (IH p eq_refl) as [-> N]. split; auto. intros [E|E]; auto.
Qed.
Lemma split_two c t a b : split c t = [a; b] -> t = a ++ c :: b /\ ~ In c a /\ ~ In c b.
Proof.
  revert a. induction t as [|h t IH]; cbn; intros a E. discriminate.
  destruct (Ascii.eqb_spec h c) as [->|D].
  - injection E as <- E. destruct (split_single _ _ _ E) as [-> N]. auto.
  - pose proof (split_ne c t) as X. destruct (split c t) as [|p q]; [contradiction|]. injection E as <- ->.
    destruct (IH p eq_refl) as (-> & N & M). split; [reflexivity|]. split; auto. intros [E|E]; auto.
Qed.

(** * whole numbers *)
Lemma digit_nat c : is_digit c = true -> exists k, (k < 10)%nat /\ c = ascii_of_nat (48 + k).
Proof.
  unfold is_digit. intros H. apply andb_true_iff in H. destruct H as [A B]. apply Nat.leb_le in A, B.
  exists (nat_of_ascii c - 48)%nat. split; [lia|]. replace (48 + (nat_of_ascii c - 48))%nat with (nat_of_ascii c) by lia. now rewrite ascii_nat_embedding.
Qed.
Lemma digits_nat w : Forall (fun c => is_digit c = true) w -> exists d, w = print_digits d /\ Forall (fun k => (k < 10)%nat) d.
Proof.
  induction 1 as [|c w H _ (d & -> & F)]. exists []; auto. destruct (digit_nat c H) as (k & K & ->). exists (k :: d). split; auto.
Qed.
Lemma pd_digit1 k : (k < 10)%nat -> is_digit (ascii_of_nat (48 + k)) = true.
Proof. intros H. do 10 (destruct k as [|k]; [reflexivity|]). lia. Qed.
Lemma us_not_digit : is_digit "_" = false. Proof. reflexivity. Qed.
Lemma digit_not_us c : is_digit c = true -> Ascii.eqb c "_" = false.
Proof. intros H. apply digit_neq; auto. Qed.

Lemma drop_us_digits b d r : Forall (fun k => (k < 10)%nat) d -> d <> [] ->
  drop_us b (print_digits d ++ r) = option_map (app (print_digits d)) (drop_us true r).
Proof.
  intros F. revert b. induction F as [|k d K F IH]; intros b N; [congruence|]. cbn [print_digits map app drop_us].
  pose proof (pd_digit1 k K) as D. rewrite (digit_not_us _ D), D. destruct d as [|k' d].
  - cbn. destruct (drop_us true r); reflexivity.
  - fold (print_digits (k' :: d)). rewrite IH by discriminate. destruct (drop_us true r); reflexivity.
Qed.
Lemma print_digits_app a b : print_digits (a ++ b) = print_digits a ++ print_digits b.
Proof. apply map_app. Qed.
Lemma drop_us_groups g : g <> [] -> Forall (fun d => d <> [] /\ Forall (fun k => (k < 10)%nat) d) g -> forall b,
  drop_us b (print_groups g) = Some (print_digits (concat g)).
Proof.
  intros N F. induction F as [|d g [D1 D2] F IH]; [congruence|]. intros b. destruct g as [|d' g].
  - cbn [print_groups concat]. rewrite app_nil_r. pose proof (drop_us_digits b d [] D2 D1) as E. rewrite app_nil_r in E. rewrite E. cbn. now rewrite app_nil_r.
  - change (print_groups (d :: d' :: g)) with (print_digits d ++ "_" :: print_groups (d' :: g)). rewrite drop_us_digits by auto.
    specialize (IH ltac:(discriminate) false). cbn [drop_us]. rewrite Ascii.eqb_refl.
    assert (H : exists c r, print_groups (d' :: g) = c :: r /\ is_digit c = true).
    { inversion F as [|? ? [Q1 Q2] _]. subst. destruct d' as [|k d']; [congruence|]. inversion Q2. subst. exists (ascii_of_nat (48 + k)).
      destruct g; eexists; (split; [reflexivity|now apply pd_digit1]). }
    destruct H as (c & r & E & D). rewrite E in *. rewrite D, IH. change (concat (d :: d' :: g)) with (d ++ concat (d' :: g)). rewrite (print_digits_app d). reflexivity.
Qed.
Lemma drop_us_sign b sgn t : drop_us b (print_sign sgn ++ t) = match sgn with None => drop_us b t | _ => option_map (app (print_sign sgn)) (drop_us false t) end.
Proof. destruct sgn as [[]|]; cbn; auto; destruct (drop_us false t); reflexivity. Qed.

Lemma drop_us_inv t : forall b u, drop_us b t = Some u -> Forall (fun c => is_digit c = true) u -> 
  (b = false -> t <> [] -> exists g, t = print_groups g /\ g <> [] /\ Forall (fun d => d <> [] /\ Forall (fun k => (k < 10)%nat) d) g /\ u = print_digits (concat g)) /\
  (b = true -> exists d g, t = print_digits d ++ (match g with [] => [] | _ => "_" :: print_groups g end) /\ Forall (fun k => (k < 10)%nat) d /\
     Forall (fun d => d <> [] /\ Forall (fun k => (k < 10)%nat) d) g /\ u = print_digits (d ++ concat g)).
Proof.
  induction t as [|c t IH]; intros b u E F.
  - injection E as <-. split; [congruence|]. intros _. exists [], []. cbn. auto.
  - cbn [drop_us] in E. destruct (Ascii.eqb_spec c "_") as [->|D].
    + destruct b; [|discriminate]. split; [discriminate|]. intros _. destruct t as [|x t]; [discriminate|]. destruct (is_digit x) eqn:Dx; [|discriminate].
      destruct (IH false u E F) as [IH1 _]. destruct (IH1 eq_refl ltac:(discriminate)) as (g & Eg & Ng & Fg & Eu).
      exists [], g. rewrite Eg. destruct g; [congruence|]. cbn [app print_digits map]. auto.
    + destruct (drop_us (is_digit c) t) as [u'|] eqn:E'; [|discriminate]. injection E as <-. inversion F as [|? ? Dc F']. subst. rewrite Dc in E'.
      destruct (IH true u' E' F') as [_ IH2]. destruct (IH2 eq_refl) as (d & g & Et & Fd & Fg & Eu). destruct (digit_nat c Dc) as (k & K & ->).
      split.
      * intros _ _. exists ((k :: d) :: g). split. { rewrite Et. destruct g; cbn; [now rewrite app_nil_r|reflexivity]. }
        split; [discriminate|]. split. { constructor; auto. split; [discriminate|auto]. } rewrite Eu. reflexivity.
      * intros _. exists (k :: d), g. split; [rewrite Et; reflexivity|]. split; auto. split; auto. rewrite Eu. reflexivity.
Qed.

Lemma sign_split_print sgn d : Forall (fun k => (k < 10)%nat) d -> d <> [] ->
  sign_split (print_sign sgn ++ print_digits d) = (match sgn with Some true => true | _ => false end, print_digits d).
Proof.
  intros F N. destruct sgn as [[]|]; cbn [print_sign app]; auto. destruct d as [|k d]; [congruence|]. inversion F. subst.
  apply sign_split_digit. now apply pd_digit1.
Qed.
Lemma span_print d : Forall (fun k => (k < 10)%nat) d -> span_digits (print_digits d) = (print_digits d, []).
Proof. intros F. rewrite <- (app_nil_r (print_digits d)) at 1. apply span_digits_app. now apply pd_digit. exact I. Qed.

Lemma concat_ok g : g <> [] -> Forall (fun d => d <> [] /\ Forall (fun k => (k < 10)%nat) d) g -> concat g <> [] /\ Forall (fun k => (k < 10)%nat) (concat g).
Proof.
  intros N F. split.
  - destruct F as [|d g [D _] _]; [congruence|]. cbn. destruct d; [congruence|discriminate].
  - clear N. induction F as [|d g [_ D] _ IH]; cbn; auto. apply Forall_app. auto.
Qed.
Lemma py_int_complete w i : whole_number w i -> py_int w = Some i.
Proof.
  intros (sgn & g & -> & N & F & ->). destruct (concat_ok g N F) as [C1 C2]. unfold py_int.
  assert (E : drop_us false (print_sign sgn ++ print_groups g) = Some (print_sign sgn ++ print_digits (concat g))).
  { rewrite drop_us_sign, (drop_us_groups g N F). destruct sgn as [[]|]; reflexivity. }
  rewrite E, sign_split_print, span_print by auto. destruct (print_digits (concat g)) as [|c r] eqn:P.
  - destruct (concat g); [congruence|discriminate].
  - rewrite <- P, digits_val_pd by auto. f_equal. destruct sgn as [[]|]; unfold sign_of; lia.
Qed.
Lemma py_int_sound w i : py_int w = Some i -> whole_number w i.
Proof.
  unfold py_int. destruct (drop_us false w) as [u|] eqn:E; [|discriminate]. destruct (sign_split u) as [neg d] eqn:S.
  destruct (span_digits d) as [wd r] eqn:P. destruct (span_digits_spec _ _ _ P) as (Ed & Fd & _). destruct wd as [|c wd]; [discriminate|].
  destruct r; [|discriminate]. intros Q. injection Q as <-. rewrite app_nil_r in Ed. subst d.
  assert (H : exists sgn v, w = print_sign sgn ++ v /\ drop_us false v = Some (c :: wd) /\ neg = match sgn with Some true => true | _ => false end).
  { destruct u as [|h u]; cbn in S. { injection S as _ S. discriminate. }
    destruct w as [|h' w]; [cbn in E; discriminate|]. cbn [drop_us] in E. destruct (Ascii.eqb_spec h' "_") as [->|D]; [discriminate|].
    destruct (drop_us (is_digit h') w) as [u'|] eqn:E'; [|discriminate]. injection E as -> ->.
    destruct (Ascii.eqb_spec h "-") as [->|Dm]. { injection S as <- ->. exists (Some true), w. auto. }
    destruct (Ascii.eqb_spec h "+") as [->|Dp]. { injection S as <- ->. exists (Some false), w. auto. }
    injection S as <- -> ->. exists None, (c :: w). split; auto. cbn [drop_us]. rewrite (proj2 (Ascii.eqb_neq _ _) D), E'. auto. }
  destruct H as (sgn & v & -> & Ev & ->). destruct (drop_us_inv v false (c :: wd) Ev Fd) as [H _].
  destruct (H eq_refl) as (g & -> & N & F & Eu). { intros ->. discriminate. }
  exists sgn, g. repeat split; auto. destruct (concat_ok g N F) as [C1 C2]. rewrite Eu, digits_val_pd by auto. destruct sgn as [[]|]; unfold sign_of; lia.
Qed.

(** the characters of a whole number *)
Lemma groups_chars g c : Forall (fun d => d <> [] /\ Forall (fun k => (k < 10)%nat) d) g -> In c (print_groups g) -> is_digit c = true \/ c = "_".
Proof.
  induction 1 as [|d g [_ D] F IH]; [intros []|]. destruct g as [|d' g].
  - cbn [print_groups]. intros H. left. pose proof (pd_digit d D) as P. rewrite Forall_forall in P. auto.
  - change (print_groups (d :: d' :: g)) with (print_digits d ++ "_" :: print_groups (d' :: g)). intros H. apply in_app_or in H. destruct H as [H|[<-|H]]; auto.
    left. pose proof (pd_digit d D) as P. rewrite Forall_forall in P. auto.
Qed.
Lemma number_chars w i c : whole_number w i -> In c w -> is_digit c = true \/ c = "_" \/ c = "-" \/ c = "+".
Proof.
  intros (sgn & g & -> & _ & F & _) H. apply in_app_or in H. destruct H as [H|H].
  - destruct sgn as [[]|]; cbn in H; intuition auto.
  - destruct (groups_chars g c F H); auto.
Qed.
Lemma number_ne w i : whole_number w i -> w <> [].
Proof.
  intros (sgn & g & -> & N & F & _). destruct F as [|d g [D1 D2] F]; [congruence|]. destruct d as [|k d]; [congruence|].
  destruct sgn as [[]|]; destruct g; discriminate.
Qed.
Lemma firm_all f w : w <> [] -> (forall c, In c w -> f c = false) -> firm f w.
Proof.
  intros N H. destruct w as [|c r]; [congruence|]. destruct (exists_last N) as (r' & c' & E). exists c, r, r', c'. repeat split; auto.
  apply H; now left. apply H. rewrite E. apply in_or_app. right. now left.
Qed.
Lemma white_space b : white b <-> Forall (fun c => py_space c = true) b.
Proof.
  unfold white, py_space. split; intros F; eapply Forall_impl; try exact F; cbn beta; intros c H.
  - cbn in H. apply orb_true_iff. rewrite !andb_true_iff, !Nat.leb_le. lia.
  - apply orb_true_iff in H. rewrite !andb_true_iff, !Nat.leb_le in H. cbn. lia.
Qed.
Lemma brackets_eqb b : brackets b <-> Forall (fun c => Ascii.eqb ")" c = true) b.
Proof.
  unfold brackets. split; intros F; eapply Forall_impl; try exact F; cbn beta; intros c H. subst. apply Ascii.eqb_refl. symmetry. now apply Ascii.eqb_eq.
Qed.
Lemma digit_not_white c : is_digit c = true -> py_space c = false.
Proof.
  unfold is_digit, py_space. intros H. apply andb_true_iff in H. rewrite !Nat.leb_le in H. apply orb_false_iff. rewrite !andb_false_iff, !Nat.leb_gt. lia.
Qed.
Lemma number_not_white w i c : whole_number w i -> In c w -> py_space c = false.
Proof. intros N H. destruct (number_chars w i c N H) as [D|[->|[-> | ->]]]; auto. now apply digit_not_white. Qed.
Lemma number_not_bracket w i c : whole_number w i -> In c w -> c <> "(" /\ c <> ")".
Proof. intros N H. destruct (number_chars w i c N H) as [D|[->|[-> | ->]]]; split; try discriminate; intros ->; discriminate. Qed.
Lemma white_not c b : white b -> In c b -> c <> "(" /\ c <> ")".
Proof. intros F H. apply white_space in F. rewrite Forall_forall in F. specialize (F c H). split; intros ->; discriminate. Qed.
