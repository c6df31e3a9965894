(** Lemmas for the table of refinable variables. *)
From Coq Require Import List Arith Lia.
From Verif Require Import Base ConModel ConHist LayoutModel LayoutSpec.
Import ListNotations.

Definition ph_fields : list phase_field := [FA0 0; FA0 1; FA0 2; FWin 0; FWin 1; FWin 2; FDelta2; FDelta1; FPscale; FSpd; FSratio].
Definition at_fields : list atom_field := [FPos 0; FPos 1; FPos 2; FU 0; FU 1; FU 2; FU 3; FU 4; FU 5; FOcc].
Definition set_fields : list set_field := [FDscale; FQdamp; FQbroad].
Definition atom_vars (ip ia : nat) : list rvar := map (AV ip ia) at_fields.
Definition phase_vars (ip n : nat) : list rvar := map (PV ip) ph_fields ++ flat_map (atom_vars ip) (seq 0 n).
Fixpoint phases_vars (p0 : nat) (natoms : list nat) : list rvar :=
  match natoms with [] => [] | n :: r => phase_vars p0 n ++ phases_vars (S p0) r end.
Definition sets_vars (nset : nat) : list rvar := flat_map (fun is => map (SV is) set_fields) (seq 0 nset).
Definition all_vars (natoms : list nat) (nset : nat) : list rvar := phases_vars 0 natoms ++ sets_vars nset.

(** ** blocks of equal size *)
Lemma block_len {A} (f : nat -> list A) b : (forall i, length (f i) = b) -> forall n a, length (flat_map f (seq a n)) = b * n.
Proof. intros H. induction n as [|n IH]; intros a; simpl. lia. rewrite app_length, H, IH. lia. Qed.
Lemma block_nth {A} (f : nat -> list A) b : (forall i, length (f i) = b) -> forall n a i j, i < n -> j < b ->
  nth_error (flat_map f (seq a n)) (b * i + j) = nth_error (f (a + i)) j.
Proof.
  intros H. induction n as [|n IH]; intros a i j Hi Hj. lia. cbn [seq flat_map]. destruct i as [|i].
  - rewrite Nat.mul_0_r, Nat.add_0_l, Nat.add_0_r. apply nth_error_app1. rewrite H. auto.
  - rewrite nth_error_app2 by (rewrite H; lia). rewrite H. replace (b * S i + j - b) with (b * i + j) by lia. rewrite IH by lia. f_equal. f_equal. lia.
Qed.
Lemma at_len ip ia : length (atom_vars ip ia) = 10. Proof. reflexivity. Qed.
Lemma phase_len ip n : length (phase_vars ip n) = 11 + 10 * n.
Proof. unfold phase_vars. rewrite app_length, (block_len _ 10) by apply at_len. reflexivity. Qed.
Lemma phases_len : forall natoms p0, length (phases_vars p0 natoms) = phase_size natoms.
Proof. induction natoms as [|n r IH]; intros p0; cbn [phases_vars phase_size]; auto. rewrite app_length, phase_len, IH. lia. Qed.
Lemma sets_len nset : length (sets_vars nset) = 3 * nset.
Proof. apply block_len. reflexivity. Qed.
Lemma all_len natoms nset : length (all_vars natoms nset) = phase_size natoms + 3 * nset.
Proof. unfold all_vars. rewrite app_length, phases_len, sets_len. auto. Qed.
Lemma phase_size_count natoms : phase_size natoms = 11 * length natoms + 10 * list_sum natoms.
Proof. induction natoms; simpl; lia. Qed.

(** ** every variable is in its slot *)
Lemma phase_nth ip n f : phase_field_ok f -> nth_error (phase_vars ip n) (phase_no f) = Some (PV ip f).
Proof.
  intros H. unfold phase_vars. rewrite nth_error_app1 by (destruct f; simpl in *; lia).
  destruct f as [j|j| | | | |]; simpl in H; auto; do 3 (destruct j as [|j]; [reflexivity|]); lia.
Qed.
Lemma at_nth ip ia f : atom_field_ok f -> nth_error (atom_vars ip ia) (atom_no_ f) = Some (AV ip ia f).
Proof. intros H. destruct f as [j|j|]; simpl in H; auto; do 6 (destruct j as [|j]; [first [reflexivity | lia]|]); lia. Qed.
Lemma at_no_lt f : atom_field_ok f -> atom_no_ f < 10.
Proof. destruct f; simpl; lia. Qed.
Lemma phase_no_lt f : phase_field_ok f -> phase_no f < 11.
Proof. destruct f; simpl; lia. Qed.
Lemma atom_nth ip n ia f : ia < n -> atom_field_ok f -> nth_error (phase_vars ip n) (11 + 10 * ia + atom_no_ f) = Some (AV ip ia f).
Proof.
  intros I H. unfold phase_vars. rewrite nth_error_app2 by (simpl; lia). replace (11 + 10 * ia + atom_no_ f - length (map (PV ip) ph_fields)) with (10 * ia + atom_no_ f) by (change (length (map (PV ip) ph_fields)) with 11; lia).
  rewrite (block_nth _ 10) by (auto using at_len, at_no_lt). apply at_nth. auto.
Qed.
Lemma phases_nth : forall natoms p0 ip j, ip < length natoms -> j < 11 + 10 * nth ip natoms 0 ->
  nth_error (phases_vars p0 natoms) (phase_start natoms ip + j) = nth_error (phase_vars (p0 + ip) (nth ip natoms 0)) j.
Proof.
  unfold phase_start. induction natoms as [|n r IH]; intros p0 ip j Hi Hj; simpl in Hi. lia. cbn [phases_vars]. destruct ip as [|ip].
  - cbn [firstn phase_size nth] in *. rewrite Nat.add_0_l, Nat.add_0_r. apply nth_error_app1. rewrite phase_len. auto.
  - cbn [firstn phase_size nth] in *. rewrite nth_error_app2 by (rewrite phase_len; lia). rewrite phase_len.
    replace (11 + 10 * n + phase_size (firstn ip r) + j - (11 + 10 * n)) with (phase_size (firstn ip r) + j) by lia.
    rewrite IH by lia. f_equal. f_equal. lia.
Qed.
Lemma start_le natoms : forall ip, ip < length natoms -> phase_start natoms ip + 11 + 10 * nth ip natoms 0 <= phase_size natoms.
Proof. unfold phase_start. induction natoms as [|n r IH]; intros ip H; simpl in H. lia. destruct ip as [|ip]; cbn [firstn phase_size nth]. lia. specialize (IH ip). lia. Qed.
Lemma slot_nth natoms nset v : exists_var natoms nset v -> nth_error (all_vars natoms nset) (slot natoms v) = Some v.
Proof.
  intros H. unfold all_vars. destruct v as [ip f|ip ia f|is f]; cbn [exists_var slot] in *.
  - destruct H as [H F]. pose proof (phase_no_lt f F). pose proof (start_le natoms ip H). rewrite nth_error_app1 by (rewrite phases_len; lia).
    rewrite phases_nth by lia. apply phase_nth. auto.
  - destruct H as (H & I & F). pose proof (at_no_lt f F). pose proof (start_le natoms ip H). rewrite nth_error_app1 by (rewrite phases_len; lia).
    rewrite <- !Nat.add_assoc. rewrite phases_nth by lia. rewrite Nat.add_assoc. apply atom_nth; auto.
  - rewrite nth_error_app2 by (rewrite phases_len; lia). rewrite phases_len. replace (phase_size natoms + 3 * is + set_no f - phase_size natoms) with (3 * is + set_no f) by lia.
    unfold sets_vars. rewrite (block_nth _ 3) by (auto; destruct f; simpl; lia). destruct f; reflexivity.
Qed.
(** and every slot holds a variable *)
Lemma field_of_slot j : j < 11 -> exists f, phase_field_ok f /\ phase_no f = j.
Proof.
  intros H. destruct (le_lt_dec 3 j); [|exists (FA0 j); simpl; lia]. destruct (le_lt_dec 6 j); [|exists (FWin (j - 3)); simpl; lia].
  destruct (Nat.eq_dec j 6); [exists FDelta2; simpl; lia|]. destruct (Nat.eq_dec j 7); [exists FDelta1; simpl; lia|].
  destruct (Nat.eq_dec j 8); [exists FPscale; simpl; lia|]. destruct (Nat.eq_dec j 9); [exists FSpd; simpl; lia|]. exists FSratio; simpl; lia.
Qed.
Lemma at_field_of_slot j : j < 10 -> exists f, atom_field_ok f /\ atom_no_ f = j.
Proof.
  intros H. destruct (le_lt_dec 3 j); [|exists (FPos j); simpl; lia]. destruct (le_lt_dec 9 j); [|exists (FU (j - 3)); simpl; lia]. exists FOcc; simpl; lia.
Qed.
Lemma set_field_of_slot j : j < 3 -> exists f, set_no f = j.
Proof. intros H. destruct j as [|[|[|j]]]; [exists FDscale|exists FQdamp|exists FQbroad|lia]; auto. Qed.
Lemma phase_of_slot natoms : forall s, s < phase_size natoms -> exists ip j, ip < length natoms /\ j < 11 + 10 * nth ip natoms 0 /\ s = phase_start natoms ip + j.
Proof.
  unfold phase_start. induction natoms as [|n r IH]; cbn [phase_size]; intros s H. lia. destruct (le_lt_dec (11 + 10 * n) s) as [L|L].
  - destruct (IH (s - (11 + 10 * n))) as (ip & j & A & B & C). lia. exists (S ip), j. cbn [length nth firstn phase_size]. lia.
  - exists 0, s. simpl. lia.
Qed.
Lemma slot_onto natoms nset s : s < phase_size natoms + 3 * nset -> exists v, exists_var natoms nset v /\ slot natoms v = s.
Proof.
  intros H. destruct (le_lt_dec (phase_size natoms) s) as [L|L].
  - set (k := s - phase_size natoms). destruct (set_field_of_slot (k mod 3)) as (f & F). apply Nat.mod_upper_bound; lia.
    exists (SV (k / 3) f). cbn [exists_var slot]. rewrite F. pose proof (Nat.div_mod k 3). split. apply Nat.div_lt_upper_bound; unfold k; lia. unfold k in *; lia.
  - destruct (phase_of_slot natoms s L) as (ip & j & A & B & ->). destruct (le_lt_dec 11 j) as [G|G].
    + set (k := j - 11). destruct (at_field_of_slot (k mod 10)) as (f & F & N). apply Nat.mod_upper_bound; lia.
      exists (AV ip (k / 10) f). cbn [exists_var slot]. rewrite N. pose proof (Nat.div_mod k 10). repeat split; auto. apply Nat.div_lt_upper_bound; unfold k; lia. unfold k in *; lia.
    + destruct (field_of_slot j G) as (f & F & N). exists (PV ip f). simpl. rewrite N. auto.
Qed.
Lemma slot_inj natoms nset v w : exists_var natoms nset v -> exists_var natoms nset w -> slot natoms v = slot natoms w -> v = w.
Proof. intros A B E. apply slot_nth in A, B. rewrite E, B in A. congruence. Qed.
Lemma slot_lt natoms nset v : exists_var natoms nset v -> slot natoms v < phase_size natoms + 3 * nset.
Proof. intros A. rewrite <- all_len. apply nth_error_Some. rewrite (slot_nth _ _ _ A). discriminate. Qed.
Lemma nth_slot natoms nset s v : nth_error (all_vars natoms nset) s = Some v -> exists_var natoms nset v /\ slot natoms v = s.
Proof.
  intros H. assert (s < phase_size natoms + 3 * nset). { rewrite <- all_len. apply nth_error_Some. congruence. }
  destruct (slot_onto natoms nset s) as (w & W & <-); auto. rewrite (slot_nth _ _ _ W) in H. inversion H; subst. auto.
Qed.

(** ** fit_setup builds it *)
Section S.
Variable find : rvar -> option nat.
Lemma push_all vs : forall s, fold_left (push find) vs s = mkLay (ly_refvar s ++ map find vs) (ly_sdptr s ++ vs) (ly_phase s) (ly_atom s) (ly_set s).
Proof.
  induction vs as [|v vs IH]; intros s; simpl. rewrite !app_nil_r. destruct s; auto. rewrite IH. unfold push. simpl. rewrite <- !app_assoc. auto.
Qed.
Definition grow (s : layout) (vs : list rvar) : layout := mkLay (ly_refvar s ++ map find vs) (ly_sdptr s ++ vs) (ly_phase s) (ly_atom s) (ly_set s).
Lemma atom_step ip s ia : setup_atom find ip s ia =
  mkLay (ly_refvar s ++ map find (atom_vars ip ia)) (ly_sdptr s ++ atom_vars ip ia) (ly_phase s) (removelast (ly_atom s) ++ [last (ly_atom s) [] ++ [length (ly_refvar s)]]) (ly_set s).
Proof. unfold setup_atom, push. cbn -[app]. rewrite <- !app_assoc. reflexivity. Qed.
Lemma atoms_step ip : forall n s a, (a = 0 -> last (ly_atom s) [] = []) -> (exists h, length (ly_refvar s) = h + 10 * a /\ last (ly_atom s) [] = map (fun ia => h + 10 * ia) (seq 0 a)) ->
  exists q, fold_left (setup_atom find ip) (seq a n) s = mkLay (ly_refvar s ++ map find (flat_map (atom_vars ip) (seq a n))) (ly_sdptr s ++ flat_map (atom_vars ip) (seq a n)) (ly_phase s) q (ly_set s) /\
    (n = 0 -> q = ly_atom s) /\ (0 < n -> q = removelast (ly_atom s) ++ [map (fun ia => length (ly_refvar s) + 10 * ia - 10 * a) (seq 0 (a + n))]).
Proof.
  induction n as [|n IH]; intros s a H0 (h & L & E).
  - exists (ly_atom s). simpl. rewrite !app_nil_r. split. destruct s; auto. split; auto. lia.
  - cbn [seq fold_left flat_map]. rewrite atom_step. set (s1 := mkLay _ _ _ _ _).
    assert (LA : last (ly_atom s1) [] = last (ly_atom s) [] ++ [length (ly_refvar s)]). { unfold s1. cbn [ly_atom]. apply last_last. }
    assert (LR : length (ly_refvar s1) = length (ly_refvar s) + 10). { unfold s1. cbn [ly_refvar]. rewrite app_length, map_length. reflexivity. }
    destruct (IH s1 (S a)) as (q & Q & Q0 & Q1). discriminate.
    { exists h. split. lia. rewrite LA, E, L. rewrite seq_S, map_app. reflexivity. }
    exists q. rewrite Q. unfold s1. cbn [ly_refvar ly_sdptr ly_phase ly_set]. rewrite <- !app_assoc, map_app. split; auto. split. discriminate.
    intros _. destruct n as [|n].
    + rewrite Q0 by auto. unfold s1. cbn [ly_atom]. f_equal. f_equal. rewrite E, L. replace (a + 1) with (S a) by lia. rewrite seq_S, map_app. cbn [map]. f_equal.
      * apply map_ext_in. intros i Hi. lia.
      * f_equal. lia.
    + rewrite Q1 by lia. unfold s1 at 1. cbn [ly_atom]. rewrite removelast_last. f_equal. f_equal. rewrite LR. replace (S a + S n) with (a + S (S n)) by lia. apply map_ext. intros i. lia.
Qed.
Lemma phase_step s ip n : setup_phase find s (ip, n) =
  mkLay (ly_refvar s ++ map find (phase_vars ip n)) (ly_sdptr s ++ phase_vars ip n) (ly_phase s ++ [length (ly_refvar s)])
    (ly_atom s ++ [map (fun ia => length (ly_refvar s) + 11 + 10 * ia) (seq 0 n)]) (ly_set s).
Proof.
  unfold setup_phase. set (s1 := push find (push find (push find (push find (push find (fold_left _ [0;1;2] (fold_left _ [0;1;2] _)) _) _) _) _) _).
  assert (S1 : s1 = mkLay (ly_refvar s ++ map find (map (PV ip) ph_fields)) (ly_sdptr s ++ map (PV ip) ph_fields) (ly_phase s ++ [length (ly_refvar s)]) (ly_atom s ++ [[]]) (ly_set s)).
  { unfold s1, push. cbn -[app]. rewrite <- !app_assoc. reflexivity. }
  rewrite S1. set (s2 := mkLay _ _ _ _ _). 
  destruct (atoms_step ip n s2 0) as (q & Q & Q0 & Q1). intros _. unfold s2. cbn [ly_atom]. apply last_last.
  { exists (length (ly_refvar s2)). split. lia. unfold s2. cbn [ly_atom]. apply last_last. }
  rewrite Q. unfold s2. cbn [ly_refvar ly_sdptr ly_phase ly_set]. unfold phase_vars. rewrite <- !app_assoc, map_app. f_equal.
  assert (LR : length (ly_refvar s2) = length (ly_refvar s) + 11). { unfold s2. cbn [ly_refvar]. rewrite app_length, map_length. reflexivity. }
  destruct n as [|n].
  - rewrite Q0 by auto. reflexivity.
  - rewrite Q1 by lia. rewrite LR. unfold s2. cbn [ly_atom]. rewrite removelast_last. f_equal. f_equal. apply map_ext. intros. lia.
Qed.
Definition atom_offs (h n : nat) : list nat := map (fun ia => h + 11 + 10 * ia) (seq 0 n).
Fixpoint phase_offs (h : nat) (natoms : list nat) : list nat := match natoms with [] => [] | n :: r => h :: phase_offs (h + 11 + 10 * n) r end.
Fixpoint atoms_offs (h : nat) (natoms : list nat) : list (list nat) := match natoms with [] => [] | n :: r => atom_offs h n :: atoms_offs (h + 11 + 10 * n) r end.
Lemma phases_step : forall natoms p0 s, fold_left (setup_phase find) (combine (seq p0 (length natoms)) natoms) s =
  mkLay (ly_refvar s ++ map find (phases_vars p0 natoms)) (ly_sdptr s ++ phases_vars p0 natoms) (ly_phase s ++ phase_offs (length (ly_refvar s)) natoms)
    (ly_atom s ++ atoms_offs (length (ly_refvar s)) natoms) (ly_set s).
Proof.
  induction natoms as [|n r IH]; intros p0 s; cbn [length seq combine fold_left phases_vars phase_offs atoms_offs].
  - simpl. rewrite !app_nil_r. destruct s; auto.
  - rewrite IH, phase_step. cbn [ly_refvar ly_sdptr ly_phase ly_atom ly_set]. rewrite <- !app_assoc, map_app. cbn [app].
    assert (L : length (ly_refvar s ++ map find (phase_vars p0 n)) = length (ly_refvar s) + 11 + 10 * n) by (rewrite app_length, map_length, phase_len; lia).
    rewrite L. reflexivity.
Qed.
Lemma sets_step : forall n a s, fold_left (setup_set find) (seq a n) s =
  mkLay (ly_refvar s ++ map find (flat_map (fun is => map (SV is) set_fields) (seq a n))) (ly_sdptr s ++ flat_map (fun is => map (SV is) set_fields) (seq a n)) (ly_phase s) (ly_atom s)
    (ly_set s ++ map (fun is => length (ly_refvar s) + 3 * is - 3 * a) (seq a n)).
Proof.
  induction n as [|n IH]; intros a s; cbn [seq fold_left flat_map map].
  - rewrite !app_nil_r. destruct s; auto.
  - rewrite IH. unfold setup_set, push. cbn -[app Nat.mul Nat.sub Nat.add]. rewrite <- !app_assoc. f_equal. cbn [app]. f_equal. f_equal. lia.
    apply map_ext_in. intros i Hi. apply in_seq in Hi. rewrite !app_length. simpl length. lia.
Qed.
Definition the_layout (natoms : list nat) (nset : nat) : layout :=
  mkLay (map find (all_vars natoms nset)) (all_vars natoms nset) (phase_offs 0 natoms) (atoms_offs 0 natoms) (map (fun is => phase_size natoms + 3 * is) (seq 0 nset)).
Lemma setup_is natoms nset npar : fit_setup find natoms nset npar = if (phase_size natoms + 3 * nset =? npar)%nat then Ok (the_layout natoms nset) else Err ErrConstraint.
Proof.
  unfold fit_setup. rewrite phases_step, sets_step. cbv zeta. cbn [ly_refvar ly_sdptr ly_phase ly_atom ly_set app length].
  rewrite !app_length, !map_length, phases_len. fold (sets_vars nset). rewrite sets_len. destruct (_ =? npar); auto. f_equal. unfold the_layout, all_vars. f_equal.
  - rewrite map_app. auto.
  - apply map_ext. intros. lia.
Qed.
Lemma offs_nth natoms : forall h ip, ip < length natoms -> nth_error (phase_offs h natoms) ip = Some (h + phase_start natoms ip).
Proof.
  unfold phase_start. induction natoms as [|n r IH]; intros h ip H; simpl in H. lia. destruct ip as [|ip]; cbn [phase_offs nth_error firstn phase_size]. f_equal; lia. rewrite IH by lia. f_equal. lia.
Qed.
Lemma aoffs_nth natoms : forall h ip ia, ip < length natoms -> ia < nth ip natoms 0 -> exists l, nth_error (atoms_offs h natoms) ip = Some l /\ nth_error l ia = Some (h + phase_start natoms ip + 11 + 10 * ia).
Proof.
  unfold phase_start. induction natoms as [|n r IH]; intros h ip ia H I; simpl in H. lia. destruct ip as [|ip]; cbn [atoms_offs nth_error firstn phase_size nth] in *.
  - exists (atom_offs h n). split; auto. unfold atom_offs. rewrite nth_error_map, (nth_error_nth' _ 0) by (rewrite seq_length; auto). rewrite seq_nth by auto. simpl. f_equal. lia.
  - destruct (IH (h + 11 + 10 * n) ip ia) as (l & A & B); auto; try lia. exists l. split; auto. rewrite B. f_equal. lia.
Qed.

(** ** fill_errors *)
Lemma fill_loop T (dvar : list T) (vs : list rvar) : (forall v c, In v vs -> find v = Some c -> c < length dvar) ->
  forall k sd, k <= length vs -> exists sd', ofold (fun sd i =>
           obind (rd (map find vs) i) (fun icon =>
           match icon with
           | None => Ok sd
           | Some c => obind (rd vs i) (fun v => obind (rd dvar c) (fun x =>
                       Ok (fun w => if rvar_eq_dec w v then x else sd w)))
           end)) (seq (length vs - k) k) sd = Ok sd' /\
    forall w, (forall c, (exists i, length vs - k <= i /\ nth_error vs i = Some w) -> find w = Some c -> nth_error dvar c = Some (sd' w)) /\
      ((exists i, length vs - k <= i /\ nth_error vs i = Some w) /\ find w <> None \/ sd' w = sd w).
Proof.
  intros B. induction k as [|k IH]; intros sd K.
  - exists sd. split; auto. intros w. split; auto. intros c (i & Hi & N). exfalso. assert (i < length vs) by (apply nth_error_Some; congruence). lia.
  - cbn [seq ofold]. set (i0 := length vs - S k). replace (S i0) with (length vs - k) by (unfold i0; lia).
    assert (L : i0 < length vs) by (unfold i0; lia). destruct (nth_error vs i0) as [v|] eqn:N; [|apply nth_error_None in N; lia].
    assert (R0 : rd (map find vs) i0 = Ok (find v)). { unfold rd. rewrite nth_error_map, N. auto. }
    rewrite R0. cbn [obind]. assert (R1 : rd vs i0 = Ok v) by (unfold rd; rewrite N; auto). rewrite R1. cbn [obind].
    assert (MID : forall i w, i0 <= i -> nth_error vs i = Some w -> w = v \/ (length vs - k <= i)).
    { intros i w Hi Nw. destruct (Nat.eq_dec i i0) as [->|]; [left; congruence|right; unfold i0 in *; lia]. }
    destruct (find v) as [c|] eqn:F.
    + assert (c < length dvar) by (apply (B v); auto; eapply nth_error_In; eauto).
      destruct (nth_error dvar c) as [x|] eqn:D; [|apply nth_error_None in D; lia]. assert (R2 : rd dvar c = Ok x) by (unfold rd; rewrite D; auto). rewrite R2. cbn [obind].
      destruct (IH (fun w => if rvar_eq_dec w v then x else sd w)) as (sd' & E & P). lia. exists sd'. split; auto. intros w. destruct (P w) as [P1 P2]. split.
      * intros c' (i & Hi & Nw) Fw. destruct P2 as [[EX NF]|P2]; [apply P1; auto|]. destruct (MID i w Hi Nw) as [->|G]; [|apply P1; eauto].
        rewrite P2. destruct (rvar_eq_dec v v); [|congruence]. congruence.
      * destruct P2 as [[(i & Hi & Nw) NF]|P2]. left. split; auto. exists i. split; auto. unfold i0. lia.
        destruct (rvar_eq_dec w v) as [->|Ne]. left. split. exists i0. auto. congruence. auto.
    + cbn [obind]. destruct (IH sd) as (sd' & E & P). lia. exists sd'. split; auto. intros w. destruct (P w) as [P1 P2]. split.
      * intros c' (i & Hi & Nw) Fw. destruct (MID i w Hi Nw) as [->|G]; [congruence|]. apply P1; eauto.
      * destruct P2 as [[(i & Hi & Nw) NF]|P2]; auto. left. split; auto. exists i. split; auto. unfold i0. lia.
Qed.
Lemma fill_ok T natoms nset (dvar : list T) sd : (forall v c, exists_var natoms nset v -> find v = Some c -> c < length dvar) ->
  exists sd', fill_errors T (the_layout natoms nset) dvar sd = Ok sd' /\ errors_of find natoms nset dvar sd sd'.
Proof.
  intros B. destruct (fill_loop T dvar (all_vars natoms nset)) with (k := length (all_vars natoms nset)) (sd := sd) as (sd' & E & P); auto.
  { intros v c I. apply In_nth_error in I as (s & N). apply nth_slot in N as [N _]. eauto. }
  rewrite Nat.sub_diag in *. exists sd'. split. exact E. intros v. destruct (P v) as [P1 P2]. split.
  - intros X c F. apply P1; auto. exists (slot natoms v). split. lia. apply slot_nth. auto.
  - intros X. destruct P2 as [[(i & _ & N) NF]|]; auto. apply nth_slot in N as [N _]. exfalso. auto.
Qed.
End S.

(** ** the counters *)
Lemma list_sum_app_ a b : list_sum (a ++ b) = list_sum a + list_sum b.
Proof. induction a; simpl; lia. Qed.
Lemma count_inv ops : forall s, co_total s = list_sum (co_natoms s) -> co_nphase s = length (co_natoms s) ->
  let s := fold_left count_step ops s in co_total s = list_sum (co_natoms s) /\ co_nphase s = length (co_natoms s).
Proof.
  induction ops as [|o ops IH]; intros s A B; cbn [fold_left]; auto. apply IH; destruct o; simpl; auto.
  - rewrite list_sum_app_. simpl. lia.
  - rewrite app_length. simpl. lia.
Qed.
Lemma count_ok ops : let s := count_run ops in getnpar s = phase_size (co_natoms s) + 3 * co_nset s.
Proof. pose proof (count_inv ops (mkCo [] 0 0 0) eq_refl eq_refl) as [A B]. unfold getnpar, count_run. cbv zeta in *. rewrite A, B, phase_size_count. lia. Qed.

(** ** with the constraint table *)
Lemma vfind_refined l a c : NoDup (map cvar l) -> (vfind l a = Some c <-> refined_by l a c).
Proof.
  intros ND. unfold vfind, refined_by. split.
  - destruct (find_var a l) as [i|] eqn:F; [|discriminate]. destruct (find_var_some _ _ _ F) as (e & E & C). rewrite E. destruct (cref e) eqn:R; [|discriminate]. intros X. inversion X; subst c. eauto.
  - intros (e & E & C & R). destruct (find_var a l) as [i|] eqn:F.
    + destruct (find_var_some _ _ _ F) as (e1 & E1 & C1). assert (i = c) by (apply (NoDup_map_nth cvar l i c e1 e ND E1 E); congruence). subst i. rewrite E. rewrite R. auto.
    + exfalso. eapply find_var_none; eauto. eapply nth_error_In; eauto.
Qed.
Lemma spread_ok T addr l natoms nset (dvar : list T) sd : NoDup (map cvar l) -> length dvar = length l ->
  exists sd', obind (fit_setup (fun v => vfind l (addr v)) natoms nset (phase_size natoms + 3 * nset)) (fun s => fill_errors T s dvar sd) = Ok sd' /\
    errors_spread addr l natoms nset dvar sd sd'.
Proof.
  intros ND LD. rewrite setup_is, Nat.eqb_refl. cbn [obind].
  destruct (fill_ok (fun v => vfind l (addr v)) T natoms nset dvar sd) as (sd' & E & P).
  { intros v c _ F. apply vfind_refined in F as (e & E & _); auto. rewrite LD. apply nth_error_Some. congruence. }
  exists sd'. split; auto. intros v. destruct (P v) as [P1 P2]. split.
  - intros X c R. apply P1; auto. apply vfind_refined; auto.
  - intros X. apply P2. intros Y. destruct (vfind l (addr v)) as [c|] eqn:F; auto. exfalso. apply X. split; auto. exists c. apply vfind_refined; auto.
Qed.
Lemma layout_ok find natoms nset npar :
  (npar = phase_size natoms + 3 * nset -> exists s, fit_setup find natoms nset npar = Ok s /\ layout_right find natoms nset s) /\
  (npar <> phase_size natoms + 3 * nset -> fit_setup find natoms nset npar = Err ErrConstraint).
Proof.
  rewrite setup_is. split; intros H.
  - subst npar. rewrite Nat.eqb_refl. eexists. split. reflexivity. unfold layout_right, the_layout. cbn [ly_refvar ly_sdptr ly_phase ly_atom ly_set].
    rewrite map_length, all_len. split; [auto|]. split; [auto|]. split; [|split; [|split]].
    + intros v E. rewrite nth_error_map, (slot_nth _ _ _ E). auto.
    + intros ip L. rewrite offs_nth by auto. simpl. f_equal. lia.
    + intros ip ia L I. destruct (aoffs_nth natoms 0 ip ia L I) as (l & A & B). exists l. split; auto. rewrite B. simpl. f_equal. lia.
    + intros is L. rewrite nth_error_map, (nth_error_nth' _ 0) by (rewrite seq_length; auto). rewrite seq_nth by auto. simpl. f_equal. lia.
  - destruct (Nat.eqb_spec (phase_size natoms + 3 * nset) npar); auto. congruence.
Qed.
Lemma never_throws find ops : let k := count_run ops in exists s, fit_setup find (co_natoms k) (co_nset k) (getnpar k) = Ok s.
Proof. intros k. destruct (layout_ok find (co_natoms k) (co_nset k) (getnpar k)) as [A _]. destruct A as (s & E & _). apply count_ok. eauto. Qed.
