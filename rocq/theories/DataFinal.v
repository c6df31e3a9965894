(** Lemmas behind the theorems about reading data and the plotted lists. *)
From Coq Require Import Ascii String List Arith ZArith Reals Bool Lia Lra.
From Verif Require Import Base ParserModel ParserLex PdfModel PdfSpec DataModel DataSpec DataProof.
Import ListNotations.
Local Open Scope R_scope.

(** * the table *)
Definition wt (ncol : nat) (v : list R) : R :=
  if ((ncol =? 3) || (ncol =? 4))%nat then if Rlt_dec 0 (nth (ncol - 1) v 0) then 1 / (nth (ncol - 1) v 0 * nth (ncol - 1) v 0) else 1 else 1.
Definition posw (ncol : nat) (v : list R) : bool :=
  if ((ncol =? 3) || (ncol =? 4))%nat then if Rlt_dec 0 (nth (ncol - 1) v 0) then true else false else true.

Lemma row_weight_row b0 n0 b1 n1 row tr lwei : row_ok ((b0, n0) :: (b1, n1) :: row) tr ->
  let v := row_values ((b0, n0) :: (b1, n1) :: row) in
  row_weight (length v) (print_row row tr) lwei = (wt (length v) v, lwei && posw (length v) v)%bool.
Proof.
  intros OK v. apply row_ok_cons in OK as (_ & _ & OK & _). apply row_ok_cons in OK as (_ & _ & OK & _).
  unfold v, row_values. cbn [map length snd].
  destruct row as [|[b2 n2] row]. { cbn. rewrite andb_true_r. auto. }
  destruct row as [|[b3 n3] row].
  { cbn [map length snd row_weight]. rewrite scan_row by auto. unfold wt, posw. cbn [Nat.eqb orb Nat.sub nth].
    destruct (Rlt_dec 0 (numeral_value n2)); rewrite ?andb_true_r, ?andb_false_r; auto. }
  destruct row as [|[b4 n4] row].
  { cbn [map length snd row_weight]. rewrite scan_row by auto. apply row_ok_cons in OK as (_ & _ & OK & _). rewrite scan_row by auto.
    unfold wt, posw. cbn [Nat.eqb orb Nat.sub nth].
    destruct (Rlt_dec 0 (numeral_value n3)); rewrite ?andb_true_r, ?andb_false_r; auto. }
  cbn. rewrite andb_true_r. auto.
Qed.

Definition triple (ncol : nat) (x : list (text * numeral) * text) : R * R * R :=
  let v := row_values (fst x) in (nth 0 v 0, nth 1 v 0, wt ncol v).
Lemma short_rows f ncol s l lwei : short_line l -> (0 < f)%nat -> read_rows f ncol s l lwei = Ok ([], lwei).
Proof.
  intros (row & tr & OK & L & ->) H. destruct f; [lia|]. cbn [read_rows].
  destruct row as [|[b n] row]. rewrite scan_end; auto.
  destruct row; [|simpl in L; lia]. rewrite scan_row by auto. apply row_ok_cons in OK as (_ & _ & OK & _). rewrite scan_end; auto.
Qed.
Lemma rows_table f ncol rows rest fin line ls lwei :
  is_table ncol rows rest -> line :: ls = table_lines rows ++ rest -> glines ls fin -> (length rows < f)%nat ->
  read_rows f ncol (after ls fin) line lwei = Ok (map (triple ncol) rows, lwei && forallb (fun x => posw ncol (row_values (fst x))) rows)%bool.
Proof.
  revert rows line ls lwei; induction f; intros rows line ls lwei (N2 & Ne & F & Sh) E G L. lia.
  destruct rows as [|[row tr] rows]; [congruence|]. inversion F; subst. destruct H1 as [OK Ln]. cbn [fst snd] in OK, Ln.
  unfold table_lines in E. cbn [map fst snd app] in E. inversion E; subst. clear E.
  assert (exists b0 n0 b1 n1 row', row = (b0, n0) :: (b1, n1) :: row') as (b0 & n0 & b1 & n1 & row' & ->).
  { destruct row as [|[b0 n0] [|[b1 n1] row']]; simpl in N2; try lia. eauto 10. }
  cbn [read_rows]. rewrite scan_row by auto. pose proof OK as OK'. apply row_ok_cons in OK' as (_ & _ & OK' & _). rewrite scan_row by auto.
  pose proof (row_weight_row _ _ _ _ _ _ lwei OK) as W. cbv zeta in W.
  assert (length (row_values ((b0, n0) :: (b1, n1) :: row')) = length ((b0, n0) :: (b1, n1) :: row')) as El by (unfold row_values; apply map_length).
  rewrite El in W. rewrite W. clear W El. set (nc := length ((b0, n0) :: (b1, n1) :: row')) in *.
  fold (table_lines rows) in *. destruct rows as [|x rows].
  - cbn [table_lines map app forallb fst]. rewrite andb_true_r. destruct rest as [|l rest].
    + rewrite getline_end. reflexivity.
    + cbn [table_lines map app] in G. rewrite getline_cons by auto. rewrite short_rows; auto. simpl in L; lia.
  - cbn [table_lines map app] in G |- *. rewrite getline_cons by auto. fold (table_lines rows).
    rewrite (IHf (x :: rows)); auto.
    + cbn [omap fst snd map forallb]. rewrite <- andb_assoc. reflexivity.
    + split; auto. split; [discriminate|]. auto.
    + eapply glines_cons; eauto.
    + simpl in L |- *; lia.
Qed.

(** * regular spacing *)
Lemma last_nth (r : list R) a : r <> [] -> last r a = nth (length r - 1) r 0.
Proof.
  induction r as [|x r IH]; [congruence|]. intros _. destruct r as [|y r]; auto.
  change (last (x :: y :: r) a) with (last (y :: r) a). rewrite IH by discriminate.
  replace (length (x :: y :: r) - 1)%nat with (S (length (y :: r) - 1)) by (simpl; lia). auto.
Qed.
Lemma gaps_spec dx r : gaps_ok dx r = true <-> forall i, (S i < length r)%nat -> Rabs (nth (S i) r 0 - nth i r 0 - dx) <= 1 / 1000.
Proof.
  unfold gaps_ok. induction r as [|x r IH].
  - simpl. split; auto. intros _ i H. lia.
  - destruct r as [|y r].
    + simpl. split; auto. intros _ i H. lia.
    + cbn [tl combine forallb snd fst]. rewrite andb_true_iff. cbn [tl] in IH. rewrite IH. unfold deltar_tol. split.
      * intros [A B] [|i] H. simpl. destruct (Rlt_dec (1 / 1000) (Rabs (y - x - dx))); [discriminate|lra].
        apply (B i). simpl in H |- *. lia.
      * intros A. split. destruct (Rlt_dec (1 / 1000) (Rabs (y - x - dx))); auto. specialize (A 0%nat ltac:(simpl; lia)). simpl in A. lra.
        intros i H. apply (A (S i)). simpl in H |- *. lia.
Qed.
Lemma regular_spec r : is_regular r = true <-> regular r.
Proof.
  unfold is_regular, regular. destruct r as [|a [|b r]].
  - simpl. split; auto. intros; lia.
  - simpl. split; auto. intros; lia.
  - rewrite gaps_spec, last_nth by discriminate. cbn [nth length]. split.
    + intros H _. exact H.
    + intros H. apply H. lia.
Qed.

(** * the header *)
Lemma history_flag l ls : text_eqb (firstn 7 l) (chars "History") = true <-> history (l :: ls).
Proof.
  rewrite text_eqb_eq. unfold history. split.
  - intros H. exists (skipn 7 l), ls. rewrite <- H, firstn_skipn. auto.
  - intros (r & ls' & H). inversion H. reflexivity.
Qed.

Definition head_of (fuel : nat) (l : text) (s : stream) : outcome (stream * text) :=
  obind (if text_eqb (firstn 7 l) (chars "History") then skip_history fuel s l else Ok (s, l)) (fun sl => skip_comments fuel (fst sl) (snd sl)).
Definition body (fuel : nat) (sl : stream * text) : outcome dset :=
  let (s, line) := sl in
  let ncol := columns (length line) line in
  obind (read_rows fuel ncol s line (2 <? ncol)%nat) (fun rl =>
  let (rows, lwei) := rl in
  let r := map (fun x : R * R * R => fst (fst x)) rows in
  let obs := map (fun x : R * R * R => snd (fst x)) rows in
  let wic := map (fun x : R * R * R => if lwei : bool then Some (snd x) else Some 1) rows in
  if negb (is_regular r) then Err ErrData
  else match r with
  | a :: _ :: _ =>
      let b := last r a in
      let bin := Z.of_nat (length obs) in
      Ok (mkDset a b (Some ((b - a) / (IZR bin - 1))) bin obs wic 0 (bin - 1))
  | _ => Err ErrData
  end).
Lemma read_split fuel l ls fin : glines (l :: ls) fin ->
  read_data_stream fuel (text_of (l :: ls) fin) = obind (head_of fuel l (after ls fin)) (body fuel).
Proof.
  intros G. unfold read_data_stream. change (mkStr (text_of (l :: ls) fin) false) with (after (l :: ls) fin).
  rewrite getline_cons by auto. unfold head_of, body.
  destruct (if text_eqb (firstn 7 l) (chars "History") then skip_history fuel (after ls fin) l else Ok (after ls fin, l)) as [[s x]| | |]; auto.
Qed.

(** skipping the history gives the lines of [begins_at] *)
Lemma history_any f ls line pre l rest fin : line :: ls = pre ++ l :: rest -> Forall (fun x => ~ is_start x) pre ->
  (is_start l \/ (rest = [] /\ fin = false)) -> glines ls fin ->
  skip_history f (after ls fin) line = Ok (after rest fin, l) \/ skip_history f (after ls fin) line = NoFuel.
Proof.
  revert ls line pre; induction f; intros ls line pre E F N G. right; auto.
  destruct pre as [|p pre].
  - left. eapply (history_done (S f)); eauto. simpl; lia.
  - inversion E; subst. inversion F; subst. cbn [skip_history]. rewrite after_eof.
    destruct (pre ++ l :: rest) as [|l' ls'] eqn:E2. destruct pre; discriminate.
    destruct (start_line p) eqn:Es. apply start_ok in Es; tauto.
    rewrite getline_cons by auto. eapply IHf; eauto. eapply glines_cons; eauto.
Qed.

Lemma last_split {A} (l : list A) : l <> [] -> exists a x, l = a ++ [x].
Proof. intros H. destruct (exists_last H) as (a & x & ->). eauto. Qed.

Lemma stuck_forever lines fin fuel : good_lines lines fin -> stuck lines fin -> read_data_stream fuel (text_of lines fin) = NoFuel.
Proof.
  intros (F & L & _) (-> & Ne & S). destruct lines as [|l ls]; [congruence|].
  assert (glines (l :: ls) false) as G by (split; auto). rewrite read_split by auto. unfold head_of.
  pose proof (glines_cons _ _ _ G) as G'.
  destruct S as [(H & tail & (pre & x & r & E & Np & Et & C) & Fc)|(H & Fc)].
  - apply (history_flag l ls) in H as Hf. rewrite Hf. subst tail.
    destruct (history_any fuel ls l pre x r false E Np ltac:(tauto) G') as [Q|Q]; rewrite Q; auto. cbn [obind fst snd].
    inversion Fc; subst. rewrite comments_stuck; auto. destruct pre as [|p pre]; inversion E; subst; auto.
    apply glines_app in G'. apply glines_cons in G'. auto.
  - destruct (text_eqb (firstn 7 l) (chars "History")) eqn:Hf. apply (history_flag l ls) in Hf. tauto.
    cbn [obind fst snd]. inversion Fc; subst. rewrite comments_stuck; auto.
Qed.

Lemma body_total fuel ls fin line : glines ls fin -> (length ls < fuel)%nat -> body fuel (after ls fin, line) <> NoFuel.
Proof.
  intros G L. unfold body. pose proof (rows_total fuel (columns (length line) line) ls fin line (2 <? columns (length line) line)%nat G L) as T.
  destruct (read_rows _ _ _ _ _) as [[rows lwei]| | |]; simpl; try congruence.
  destruct (negb _); [discriminate|]. destruct (map _ rows) as [|a [|b r]]; discriminate.
Qed.

Definition ready (N : nat) (o : outcome (stream * text)) : Prop :=
  exists rest fin x, o = Ok (after rest fin, x) /\ glines rest fin /\ (length rest <= N)%nat.
Lemma eof_ready N x : ready N (Ok (eof, x)).
Proof. exists [], false, x. split; auto. split. split; auto. discriminate. simpl; lia. Qed.
Lemma comments_ready fuel l ls fin : glines ls fin -> ~ (fin = false /\ Forall comment (l :: ls)) -> (S (length ls) < fuel)%nat ->
  ready (length ls) (skip_comments fuel (after ls fin) l).
Proof.
  intros G N L. destruct (split_comments (l :: ls)) as [F|(com & x & rest & E & F & C)].
  - destruct fin; [|tauto]. inversion F; subst. rewrite comments_end; auto. apply eof_ready.
  - assert (length (l :: ls) = length (com ++ x :: rest)) as El by congruence. rewrite app_length in El. simpl in El.
    erewrite comments_done; eauto; [|lia]. exists rest, fin, x. split; auto. split; [|lia].
    destruct com; inversion E; subst; auto. apply glines_app in G. apply glines_cons in G. auto.
Qed.

Lemma stops lines fin fuel : good_lines lines fin -> ~ stuck lines fin -> (length lines + 2 < fuel)%nat ->
  read_data_stream fuel (text_of lines fin) <> NoFuel.
Proof.
  intros (F & L & E0) NS Lf. destruct lines as [|l ls].
  - rewrite (E0 eq_refl). destruct fuel as [|fuel]; [simpl in Lf; lia|]. cbn. discriminate.
  - assert (glines (l :: ls) fin) as G by (split; auto). rewrite read_split by auto. pose proof (glines_cons _ _ _ G) as G'. simpl in Lf.
    assert (ready (length ls) (head_of fuel l (after ls fin))) as (rest & fin' & x & Q & Gr & Lr).
    { unfold head_of. destruct (text_eqb (firstn 7 l) (chars "History")) eqn:Hf.
      - apply (history_flag l ls) in Hf.
        destruct (split_start (l :: ls)) as [Fs|(pre & x & rest & E & Fs & Sx)].
        + destruct fin.
          * inversion Fs; subst. rewrite history_end; auto; [|lia]. cbn [obind fst snd]. destruct fuel; [lia|]. cbn [skip_comments hash_line]. apply eof_ready.
          * destruct (last_split (l :: ls) ltac:(discriminate)) as (a & x & E).
            assert (Forall (fun x => ~ is_start x) a) as Fa by (rewrite E in Fs; apply Forall_app in Fs; tauto).
            assert (length (l :: ls) = length (a ++ [x])) as El by congruence. rewrite app_length in El. simpl in El.
            erewrite history_done; eauto; [|lia]. cbn [obind fst snd].
            assert (ready (length (@nil text)) (skip_comments fuel (after [] false) x)) as (r & f' & y & Q & Gr & Lr).
            { apply comments_ready; [split; auto; discriminate| |simpl; lia]. intros [_ Fc]. apply NS. split; auto. split; [discriminate|]. left. split; auto.
              exists [x]. split; auto. exists a, x, []. auto. }
            exists r, f', y. split; auto. split; auto. simpl in Lr |- *. lia.
        + assert (length (l :: ls) = length (pre ++ x :: rest)) as El by congruence. rewrite app_length in El. simpl in El.
          erewrite history_done; eauto; [|lia]. cbn [obind fst snd].
          assert (glines rest fin) as Gx. { destruct pre; inversion E; subst; auto. apply glines_app in G'. apply glines_cons in G'. auto. }
          assert (ready (length rest) (skip_comments fuel (after rest fin) x)) as (r & f' & y & Q & Gr & Lr).
          { apply comments_ready; auto; [|lia]. intros [-> Fc]. apply NS. split; auto. split; [discriminate|]. left. split; auto.
            exists (x :: rest). split; auto. exists pre, x, rest. auto. }
          exists r, f', y. split; auto. split; auto. simpl in Lr |- *. lia.
      - cbn [obind fst snd]. apply comments_ready; auto; [|lia]. intros [-> Fc]. apply NS. split; auto. split; [discriminate|]. right. split; auto.
        intros H. apply history_flag in H. congruence. }
    rewrite Q. cbn [obind]. apply body_total; auto. lia.
Qed.

(** every text has its lines *)
Lemma text_lines t : exists lines fin, good_lines lines fin /\ t = text_of lines fin.
Proof.
  induction t as [t IH] using (induction_ltof1 _ (@length ascii)); unfold ltof in IH.
  destruct (split_at newline t) as [[a b]|] eqn:E.
  - apply split_at_spec in E as [-> Na]. destruct (IH b) as (ls & fin & (F & L & E0) & ->).
    { rewrite app_length. simpl. lia. }
    destruct ls as [|l ls].
    + exists [a], true. split; [|reflexivity]. split; [auto|]. split; discriminate.
    + exists (a :: l :: ls), fin. split; [|reflexivity]. split; [constructor; auto|]. split; [exact L|discriminate].
  - apply split_at_none in E. destruct t as [|c t].
    + exists [], false. split; [|reflexivity]. split; [constructor|]. split; [discriminate|auto].
    + exists [c :: t], false. split; [|reflexivity]. split; [auto|]. split; discriminate.
Qed.

(** * reading a table *)
Lemma row_no_comment row tr : row_ok row tr -> (2 <= length row)%nat -> ~ comment (print_row row tr) /\ forall ls, ~ history (print_row row tr :: ls).
Proof.
  intros OK L. destruct row as [|[b n] row]; [simpl in L; lia|]. apply row_ok_cons in OK as (B & N & _ & _). cbn [fst snd] in *.
  rewrite print_row_cons. destruct (print_head _ N) as (c & q & E & Sp & H1 & H2). rewrite E.
  destruct b as [|c' b].
  - split. intros (r & H). inversion H; congruence. intros ls (r & ls' & H). inversion H; congruence.
  - inversion B; subst. split. intros (r & H). inversion H; subst. discriminate.
    intros ls (r & ls' & H). inversion H; subst. discriminate.
Qed.
Lemma head_table h rows rest ncol fin fuel l ls : header h -> is_table ncol rows rest -> h ++ table_lines rows ++ rest = l :: ls ->
  glines (l :: ls) fin -> (length (l :: ls) < fuel)%nat ->
  exists x r, x :: r = table_lines rows ++ rest /\ head_of fuel l (after ls fin) = Ok (after r fin, x) /\ glines r fin.
Proof.
  intros H T E G Lf. pose proof T as (N2 & Ne & F & Sh). destruct rows as [|[row tr] rows]; [congruence|].
  inversion F; subst. destruct H2 as [OK Ln]. cbn [fst snd] in *. 
  destruct (row_no_comment row tr OK) as [NC NH]; [lia|].
  unfold table_lines in E |- *. cbn [map app fst snd] in E |- *. fold (table_lines rows) in *.
  set (x := print_row row tr) in *. exists x, (table_lines rows ++ rest). split; auto.
  pose proof (glines_cons _ _ _ G) as G'.
  assert (glines (table_lines rows ++ rest) fin) as Gr. { rewrite <- E in G. apply glines_app in G. apply glines_cons in G. auto. }
  split; auto. assert (length (l :: ls) = length (h ++ x :: table_lines rows ++ rest)) as El by congruence. rewrite app_length in El. simpl in El, Lf.
  unfold head_of. destruct H as [Fc|(r & mid & st & com & Eh & Fm & Ss & Fc)].
  - destruct (text_eqb (firstn 7 l) (chars "History")) eqn:Hf.
    + exfalso. apply (history_flag l ls) in Hf. destruct h as [|c h]; inversion E; subst. eapply NH; eauto.
      apply Forall_inv in Fc as [q Eq]. destruct Hf as (r & ls' & Q). rewrite Eq in Q. inversion Q.
    + cbn [obind fst snd]. eapply comments_done; eauto. lia.
  - subst h. assert (text_eqb (firstn 7 l) (chars "History") = true) as Hf. { apply (history_flag l ls). inversion E. eexists _, _; reflexivity. }
    rewrite Hf. assert (l :: ls = ((chars "History" ++ r) :: mid) ++ st :: (com ++ x :: table_lines rows ++ rest)) as E2.
    { rewrite <- E. simpl. f_equal. rewrite <- !app_assoc. auto. }
    cbn [length] in El. rewrite !app_length in El. cbn [length] in El.
    erewrite history_done; eauto.
    + cbn [obind fst snd]. eapply (comments_done _ _ _ (st :: com)); eauto.
      * constructor; auto. destruct Ss as (k & b1 & b2 & q & -> & _). simpl. eexists; eauto.
      * simpl in E2. inversion E2. rewrite H1 in G'. apply glines_app in G'. apply glines_cons in G'. auto.
      * simpl. unfold text in *. lia.
    + constructor; auto. intros (k & b1 & b2 & q & Q & _). discriminate.
    + simpl; unfold text in *; lia.
Qed.

Lemma nth_column k rows i : nth i (column k rows) 0 = nth k (row_values (fst (nth i rows ([], [])))) 0.
Proof.
  unfold column. pose proof (map_nth (fun x : list (text * numeral) * text => nth k (row_values (fst x)) 0) rows ([], []) i) as Q.
  simpl in Q. replace (match k with 0%nat | _ => 0 end) with 0 in Q by (destruct k; auto). exact Q.
Qed.

Lemma reads_table h rows rest ncol fin fuel : header h -> is_table ncol rows rest -> good_lines (h ++ table_lines rows ++ rest) fin ->
  (length (h ++ table_lines rows ++ rest) + 2 < fuel)%nat ->
  exists w, weights_are ncol (map (fun x => row_values (fst x)) rows) w /\
  (regular (column 0 rows) /\ (2 <= length rows)%nat ->
     exists s, read_data_stream fuel (text_of (h ++ table_lines rows ++ rest) fin) = Ok s /\ holds_data (column 0 rows) (column 1 rows) w s) /\
  (~ (regular (column 0 rows) /\ (2 <= length rows)%nat) ->
     read_data_stream fuel (text_of (h ++ table_lines rows ++ rest) fin) = Err ErrData).
Proof.
  intros H T (Fl & Ll & _) Lf. pose proof T as (N2 & Ne & F & Sh).
  destruct (h ++ table_lines rows ++ rest) as [|l ls] eqn:E. { destruct h, rows; try discriminate. congruence. }
  assert (glines (l :: ls) fin) as G by (split; auto).
  destruct (head_table h rows rest ncol fin fuel l ls H T E G ltac:(lia)) as (x & r & Ex & Qh & Gr).
  rewrite read_split, Qh by auto. cbn [obind]. unfold body.
  assert (columns (length x) x = ncol) as ->.
  { destruct rows as [|[row tr] rows]; [congruence|]. inversion F; subst. destruct H2 as [OK Ln]. cbn [fst snd] in *.
    cbn [table_lines map app fst snd] in Ex. inversion Ex; subst. rewrite columns_row; auto. apply row_length; auto. }
  assert (length rows < fuel)%nat as Lr.
  { assert (length (h ++ table_lines rows ++ rest) = length (l :: ls)) as El by congruence. rewrite !app_length in El. unfold table_lines in El. rewrite map_length in El. lia. }
  rewrite (rows_table _ _ _ _ _ _ _ _ T Ex Gr Lr). cbn [obind].
  set (lw := (_ && _)%bool). rewrite !map_map. cbn [triple fst snd].
  assert (map (fun x0 : list (text * numeral) * text => nth 0 (row_values (fst x0)) 0) rows = column 0 rows) as -> by reflexivity.
  assert (map (fun x0 : list (text * numeral) * text => nth 1 (row_values (fst x0)) 0) rows = column 1 rows) as -> by reflexivity.
  set (w := map (fun x0 => if lw then _ else _) rows). exists w. split.
  { unfold weights_are, w. rewrite !map_map.
    destruct ((ncol =? 3) || (ncol =? 4))%nat eqn:E34.
    - assert (ncol = 3 \/ ncol = 4)%nat as K. { apply orb_prop in E34 as [K|K]; apply Nat.eqb_eq in K; auto. }
      destruct lw eqn:Elw; unfold lw in Elw.
      + apply andb_prop in Elw as [_ Fp]. left. split; auto. rewrite forallb_forall in Fp.
        assert (forall y, In y rows -> 0 < nth (ncol - 1) (row_values (fst y)) 0) as Fp'.
        { intros y I. specialize (Fp y I). unfold posw in Fp. rewrite E34 in Fp. destruct (Rlt_dec 0 _); [auto|discriminate]. }
        split. apply Forall_map, Forall_forall; auto. apply map_ext_in. intros y I. specialize (Fp' y I). unfold wt. rewrite E34.
        destruct (Rlt_dec 0 (nth (ncol - 1) (row_values (fst y)) 0)); [auto|contradiction].
      + right. split; auto. intros [_ Fp]. rewrite Forall_map, Forall_forall in Fp. assert (2 <? ncol = true)%nat as E2 by (apply Nat.ltb_lt; lia).
        rewrite E2, andb_true_l in Elw. assert (forallb (fun x0 => posw ncol (row_values (fst x0))) rows = true) as Ea; [|congruence].
        apply forallb_forall. intros y I. unfold posw. rewrite E34. specialize (Fp y I).
        destruct (Rlt_dec 0 (nth (ncol - 1) (row_values (fst y)) 0)); [auto|contradiction].
    - right. split. intros [[->| ->] _]; discriminate. apply map_ext. intros y. unfold wt. rewrite E34. destruct lw; auto. }
  assert (length (column 0 rows) = length rows) as Lc by (unfold column; apply map_length).
  assert (length (column 1 rows) = length rows) as Lc1 by (unfold column; apply map_length).
  destruct (is_regular (column 0 rows)) eqn:Er.
  - apply regular_spec in Er. cbn [negb]. split.
    + intros [_ L2]. destruct (column 0 rows) as [|a [|b q]] eqn:Ec; try (simpl in Lc; lia).
      rewrite last_nth by discriminate. eexists. split; [reflexivity|].
      unfold holds_data. cbn [dt_obs dt_wic dt_rmin dt_rmax dt_bin dt_nfmin dt_nfmax dt_deltar].
      rewrite Lc, Lc1, <- INR_IZR_INZ. repeat split; auto.
    + intros NR. destruct (column 0 rows) as [|a [|b q]] eqn:Ec; auto. exfalso. apply NR. split; auto. simpl in Lc. lia.
  - split. intros [R0 _]. apply regular_spec in R0. congruence. auto.
Qed.
