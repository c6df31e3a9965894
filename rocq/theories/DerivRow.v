(** Rows of derivatives: which operations act on which column. *)
From Coq Require Import List Arith ZArith Reals Bool Lia Lra.
From Verif Require Import Base RSum MathModel MetricModel PdfModel PdfSpec PdfProof LayoutModel LayoutSpec LayoutProof DerivModel DerivSpec.
Import ListNotations.
Local Open Scope nat_scope.

Lemma upd_len {A} n (x : A) : forall l, length (upd n x l) = length l.
Proof. induction n; destruct l; simpl; auto. Qed.
Lemma nth_upd {A} (d : A) n x : forall l m, n < length l -> nth m (upd n x l) d = if Nat.eqb m n then x else nth m l d.
Proof. induction n; destruct l; simpl; intros m H; try lia. destruct m; auto. destruct m; simpl; auto. apply IHn. lia. Qed.

(** what a sequence of operations does to the column of slot s *)
Definition effect (s : nat) (l : list (nat * (num -> num))) (x : num) : num :=
  fold_left (fun x e => if fst e =? s then snd e x else x) l x.
Lemma effect_app s l l' x : effect s (l ++ l') x = effect s l' (effect s l x).
Proof. apply fold_left_app. Qed.

Lemma run_ok refvar m : forall l row, length row = m ->
  (forall e, In e l -> fst e < length refvar) -> (forall s c, nth_error refvar s = Some (Some c) -> c < m) ->
  exists row', run_edits refvar row l = Ok row' /\ length row' = m /\
  forall s c, nth_error refvar s = Some (Some c) -> (forall s', nth_error refvar s' = Some (Some c) -> s' = s) ->
    nth c row' None = effect s l (nth c row None).
Proof.
  induction l as [|[s f] l IH]; intros row L B C; cbn [run_edits ofold].
  - exists row. auto.
  - assert (exists row1, edit refvar row s f = Ok row1 /\ length row1 = m /\ forall s' c, nth_error refvar s' = Some (Some c) -> (forall s2, nth_error refvar s2 = Some (Some c) -> s2 = s') ->
      nth c row1 None = if s =? s' then f (nth c row None) else nth c row None) as (row1 & E1 & L1 & X1).
    { unfold edit, rd. destruct (nth_error refvar s) as [o|] eqn:N.
      2:{ exfalso. apply nth_error_None in N. specialize (B (s, f) (or_introl eq_refl)). simpl in B. lia. }
      cbn [obind]. destruct o as [c|].
      - assert (c < m) by eauto. destruct (nth_error row c) as [x|] eqn:R; [|apply nth_error_None in R; lia]. cbn [obind]. unfold wr.
        destruct (Nat.ltb_spec c (length row)); [|lia]. eexists. split; eauto. split. rewrite upd_len. auto.
        intros s' c' N' U. rewrite nth_upd by lia. destruct (Nat.eqb_spec c' c) as [->|Ne].
        + rewrite <- (U s N), Nat.eqb_refl. f_equal. symmetry. apply nth_error_nth. auto.
        + destruct (Nat.eqb_spec s s'); auto. subst. congruence.
      - exists row. split; auto. split; auto. intros s' c' N' U. destruct (Nat.eqb_spec s s'); auto. subst. congruence. }
    fold (run_edits refvar). cbn [fst snd]. rewrite E1. cbn [obind].
    destruct (IH row1 L1) as (row' & E & L' & X); auto. { intros e I. apply B. right. auto. }
    exists row'. split. exact E. split; auto. intros s' c N U. rewrite (X s' c N U), (X1 s' c N U). reflexivity.
Qed.

(** rows at some points *)
Definition mat (N m : nat) (A : list (list num)) : Prop := length A = N /\ forall row, In row A -> length row = m.
Definition row_at (A : list (list num)) (g : Z) : list num := nth (Z.to_nat g) A [].
Definition cell (A : list (list num)) (g : Z) (c : nat) : num := nth c (row_at A g) None.
Lemma row_len N m A g : mat N m A -> (0 <= g < Z.of_nat N)%Z -> length (row_at A g) = m.
Proof. intros [L R] H. apply R. apply nth_In. lia. Qed.
Lemma rdz_row N m A g : mat N m A -> (0 <= g < Z.of_nat N)%Z -> rdz A g = Ok (row_at A g).
Proof.
  intros [L R] H. unfold rdz, rd, row_at. destruct (Z.ltb_spec g 0); [lia|]. rewrite (nth_error_nth' _ []) by lia. auto.
Qed.
Lemma wrz_row N m A g row : mat N m A -> (0 <= g < Z.of_nat N)%Z -> length row = m ->
  exists A', wrz A g row = Ok A' /\ mat N m A' /\ forall g', (0 <= g')%Z -> row_at A' g' = if (g' =? g)%Z then row else row_at A g'.
Proof.
  intros [L R] H Lr. unfold wrz, wr. destruct (Z.ltb_spec g 0); [lia|]. destruct (Nat.ltb_spec (Z.to_nat g) (length A)); [|lia].
  eexists. split; eauto. split. split. rewrite upd_len; auto.
  - intros r I. apply (In_nth _ _ []) in I as (k & K & <-). rewrite upd_len in K. rewrite nth_upd by lia. destruct (Nat.eqb_spec k (Z.to_nat g)); auto. apply R. apply nth_In. auto.
  - intros g' H'. unfold row_at. rewrite nth_upd by lia. destruct (Nat.eqb_spec (Z.to_nat g') (Z.to_nat g)), (Z.eqb_spec g' g); auto; lia.
Qed.
Lemma rows_ok (F : Z -> list num -> outcome (list num)) (H : Z -> list num -> list num) N m : forall l A, NoDup l -> mat N m A ->
  (forall g, In g l -> (0 <= g < Z.of_nat N)%Z) ->
  (forall g row, In g l -> length row = m -> F g row = Ok (H g row) /\ length (H g row) = m) ->
  exists A', ofold (fun A g => obind (rdz A g) (fun row => obind (F g row) (fun row => wrz A g row))) l A = Ok A' /\ mat N m A' /\
  forall g, (0 <= g < Z.of_nat N)%Z -> (In g l -> row_at A' g = H g (row_at A g)) /\ (~ In g l -> row_at A' g = row_at A g).
Proof.
  induction l as [|g l IH]; intros A ND M B P; cbn [ofold].
  - exists A. split; auto. split; auto. intros; split; auto. intros [].
  - inversion ND; subst. rewrite (rdz_row N m) by (auto; apply B; left; auto). cbn [obind].
    assert (Lr : length (row_at A g) = m) by (eapply row_len; eauto; apply B; left; auto).
    destruct (P g (row_at A g) (or_introl eq_refl) Lr) as [-> L1]. cbn [obind].
    destruct (wrz_row N m A g (H g (row_at A g)) M) as (A1 & -> & M1 & X1); auto. apply B; left; auto. cbn [obind].
    destruct (IH A1) as (A' & E & M' & X'); auto. { intros; apply B; right; auto. } { intros; apply P; auto; right; auto. }
    exists A'. split; auto. split; auto. intros g' Hg'. destruct (X' g' Hg') as [Y1 Y2]. split.
    + intros [->|I]. rewrite Y2 by auto. rewrite X1 by lia. rewrite Z.eqb_refl. auto.
      rewrite Y1 by auto. rewrite X1 by lia. destruct (Z.eqb_spec g' g); auto. subst; contradiction.
    + intros NI. rewrite Y2 by (intros I; apply NI; right; auto). rewrite X1 by lia. destruct (Z.eqb_spec g' g); auto. subst. exfalso. apply NI. left; auto.
Qed.

(** ** operations named by their variables *)
Definition pf_eqb (f f' : phase_field) : bool :=
  match f, f' with
  | FA0 j, FA0 j' => j =? j' | FWin j, FWin j' => j =? j' | FDelta2, FDelta2 => true | FDelta1, FDelta1 => true
  | FPscale, FPscale => true | FSpd, FSpd => true | FSratio, FSratio => true | _, _ => false
  end.
Definition af_eqb (f f' : atom_field) : bool :=
  match f, f' with FPos j, FPos j' => j =? j' | FU j, FU j' => j =? j' | FOcc, FOcc => true | _, _ => false end.
Definition sf_eqb (f f' : set_field) : bool :=
  match f, f' with FDscale, FDscale => true | FQdamp, FQdamp => true | FQbroad, FQbroad => true | _, _ => false end.
Definition veqb (v w : rvar) : bool :=
  match v, w with
  | PV ip f, PV ip' f' => pf_eqb f f' && (ip =? ip')
  | AV ip ia f, AV ip' ia' f' => af_eqb f f' && ((ip =? ip') && (ia =? ia'))
  | SV is f, SV is' f' => sf_eqb f f' && (is =? is')
  | _, _ => false
  end.
Lemma veqb_eq v w : veqb v w = true <-> v = w.
Proof.
  split.
  - destruct v as [ip f|ip ia f|is f], w as [ip' f'|ip' ia' f'|is' f']; cbn [veqb]; try discriminate; intros H; repeat rewrite andb_true_iff in H.
    + destruct H as [H1 H2]. apply Nat.eqb_eq in H2. subst. f_equal. destruct f, f'; try discriminate; auto; simpl in H1; apply Nat.eqb_eq in H1; congruence.
    + destruct H as [H1 [H2 H3]]. apply Nat.eqb_eq in H2, H3. subst. f_equal. destruct f, f'; try discriminate; auto; simpl in H1; apply Nat.eqb_eq in H1; congruence.
    + destruct H as [H1 H2]. apply Nat.eqb_eq in H2. subst. f_equal. destruct f, f'; try discriminate; auto.
  - intros <-. destruct v as [ip f|ip ia f|is f]; cbn [veqb]; rewrite !Nat.eqb_refl; destruct f; simpl; rewrite ?Nat.eqb_refl; auto.
Qed.
Definition leffect (v : rvar) (l : list (rvar * (num -> num))) (x : num) : num :=
  fold_left (fun x e => if veqb (fst e) v then snd e x else x) l x.
Lemma leffect_app v l l' x : leffect v (l ++ l') x = leffect v l' (leffect v l x).
Proof. apply fold_left_app. Qed.
Definition slots (natoms : list nat) (l : list (rvar * (num -> num))) : list (nat * (num -> num)) := map (fun e => (slot natoms (fst e), snd e)) l.
Definition labels_ok (natoms : list nat) (nset : nat) (l : list (rvar * (num -> num))) : Prop := forall e, In e l -> exists_var natoms nset (fst e).
Lemma labels_app natoms nset l l' : labels_ok natoms nset l -> labels_ok natoms nset l' -> labels_ok natoms nset (l ++ l').
Proof. intros A B e I. apply in_app_or in I as [I|I]; auto. Qed.
Lemma effect_slots natoms nset v : exists_var natoms nset v -> forall l x, labels_ok natoms nset l -> effect (slot natoms v) (slots natoms l) x = leffect v l x.
Proof.
  intros V. induction l as [|[w f] l IH]; intros x H; auto. cbn [slots map effect leffect fold_left fst snd].
  assert (E : (slot natoms w =? slot natoms v) = veqb w v).
  { destruct (veqb w v) eqn:Q. apply veqb_eq in Q. subst. apply Nat.eqb_refl. apply Nat.eqb_neq. intros K. apply (slot_inj natoms nset) in K; auto.
    subst. assert (veqb v v = true) by (apply veqb_eq; auto). congruence. apply (H (w, f)). left; auto. }
  rewrite E. apply IH. intros e I. apply H. right; auto.
Qed.

Section Rows.
Variables (find : rvar -> option nat) (natoms : list nat) (nset : nat) (refvar : list (option nat)) (vref : list bool).
Hypothesis LEN : length refvar = phase_size natoms + 3 * nset.
Hypothesis REF : forall v, exists_var natoms nset v -> nth_error refvar (slot natoms v) = Some (find v).
Hypothesis COL : columns_fit find natoms nset vref.
Let m := length vref.

Lemma ref_var s c : nth_error refvar s = Some (Some c) -> exists v, exists_var natoms nset v /\ slot natoms v = s /\ find v = Some c.
Proof.
  intros H. assert (s < length refvar) by (apply nth_error_Some; congruence). rewrite LEN in H0. destruct (slot_onto natoms nset s H0) as (v & V & S).
  exists v. split; auto. split; auto. apply REF in V. rewrite S, H in V. congruence.
Qed.
Lemma run_labels l row : labels_ok natoms nset l -> length row = m ->
  exists row', run_edits refvar row (slots natoms l) = Ok row' /\ length row' = m /\
  forall v c, exists_var natoms nset v -> find v = Some c -> nth c row' None = leffect v l (nth c row None).
Proof.
  intros LB L. destruct (run_ok refvar m (slots natoms l) row L) as (row' & E & L' & X).
  - intros e I. unfold slots in I. apply in_map_iff in I as (e' & <- & I). cbn [fst]. rewrite LEN. apply slot_lt. auto.
  - intros s c N. apply ref_var in N as (v & V & _ & F). destruct COL as [_ C2]. apply nth_error_Some. rewrite (C2 v c V F). discriminate.
  - exists row'. split; auto. split; auto. intros v c V F. rewrite (X (slot natoms v) c).
    + apply (effect_slots natoms nset); auto.
    + rewrite REF by auto. congruence.
    + intros s' N'. apply ref_var in N' as (w & W & <- & F'). destruct COL as [C1 _]. rewrite (C1 v w c); auto.
Qed.

(** the matrix A' is A after the operations E g at each point g *)
Definition acts (N : nat) (E : Z -> list (rvar * (num -> num))) (A A' : list (list num)) : Prop :=
  mat N m A' /\ forall g v c, (0 <= g < Z.of_nat N)%Z -> exists_var natoms nset v -> find v = Some c -> cell A' g c = leffect v (E g) (cell A g c).
Lemma acts_refl N A : mat N m A -> acts N (fun _ => []) A A.
Proof. intros M. split; auto. Qed.
Lemma acts_trans N E E' A A' A'' : acts N E A A' -> acts N E' A' A'' -> acts N (fun g => E g ++ E' g) A A''.
Proof. intros [M H] [M' H']. split; auto. intros. rewrite leffect_app. rewrite (H' g v c), (H g v c); auto. Qed.
Lemma acts_ext N E E' A A' : (forall g, (0 <= g < Z.of_nat N)%Z -> E g = E' g) -> acts N E A A' -> acts N E' A A'.
Proof. intros X [M H]. split; auto. intros. rewrite <- X; auto. Qed.
Lemma acts_loop {B} N (step : list (list num) -> B -> outcome (list (list num))) (E : B -> Z -> list (rvar * (num -> num))) : forall l A, mat N m A ->
  (forall b A, In b l -> mat N m A -> exists A', step A b = Ok A' /\ acts N (E b) A A') ->
  exists A', ofold step l A = Ok A' /\ acts N (fun g => flat_map (fun b => E b g) l) A A'.
Proof.
  induction l as [|b l IH]; intros A M H; cbn [ofold flat_map].
  - exists A. split; auto. apply acts_refl; auto.
  - destruct (H b A (or_introl eq_refl) M) as (A1 & E1 & X1). rewrite E1. cbn [obind]. destruct (IH A1) as (A' & E2 & X2). apply X1. intros; apply H; auto; right; auto.
    exists A'. split; auto. apply (acts_trans N _ _ A A1 A'); auto.
Qed.
(** operations on the rows at some points *)
Lemma acts_rows N (F : Z -> list (rvar * (num -> num))) l A : NoDup l -> mat N m A -> (forall g, In g l -> (0 <= g < Z.of_nat N)%Z) -> (forall g, In g l -> labels_ok natoms nset (F g)) ->
  exists A', ofold (fun A g => obind (rdz A g) (fun row => obind (run_edits refvar row (slots natoms (F g))) (fun row => wrz A g row))) l A = Ok A' /\
  acts N (fun g => if in_dec Z.eq_dec g l then F g else []) A A'.
Proof.
  intros ND M B LB. 
  set (H := fun g row => match run_edits refvar row (slots natoms (F g)) with Ok row' => row' | _ => [] end).
  destruct (rows_ok (fun g row => run_edits refvar row (slots natoms (F g))) H N m l A) as (A' & E & M' & X); auto.
  { intros g row I L. destruct (run_labels (F g) row (LB g I) L) as (row' & R & L' & _). unfold H. rewrite R. auto. }
  exists A'. split; auto. split; auto. intros g v c Hg V Fv. destruct (X g Hg) as [X1 X2]. unfold cell. destruct (in_dec Z.eq_dec g l) as [I|I].
  - rewrite X1 by auto. unfold H. destruct (run_labels (F g) (row_at A g) (LB g I)) as (row' & R & L' & Y). eapply row_len; eauto. rewrite R. auto.
  - rewrite X2 by auto. reflexivity.
Qed.
End Rows.
