(** Proofs about printed vectors and matrices. *)
From Coq Require Import String Ascii List Arith Bool Lia.
From Verif Require Import Base MxPrintModel MxPrintSpec.
Import ListNotations.
Local Open Scope list_scope.

Lemma all_app u v : all_text (u ++ v) = all_text u ++ all_text v.
Proof. unfold all_text. rewrite map_app, concat_app. reflexivity. Qed.
Lemma out_app u v : out_text (u ++ v) = out_text u ++ out_text v.
Proof. unfold out_text. rewrite map_app, concat_app. reflexivity. Qed.
Lemma all_flat {A} (f : A -> writes) l : all_text (flat_map f l) = flat_map (fun x => all_text (f x)) l.
Proof. induction l; cbn [flat_map]. reflexivity. rewrite all_app, IHl. reflexivity. Qed.
Lemma out_flat {A} (f : A -> writes) l : out_text (flat_map f l) = flat_map (fun x => out_text (f x)) l.
Proof. induction l; cbn [flat_map]. reflexivity. rewrite out_app, IHl. reflexivity. Qed.

(** a loop that prints separators between and an end after the last *)
Lemma loop_join (f : nat -> list ascii) sep e : forall k a, 0 < k ->
  flat_map (fun i => f i ++ if negb (i =? a + k - 1) then sep else e) (seq a k) = join sep (map f (seq a k)) ++ e.
Proof.
  induction k as [|k IH]; intros a K. lia. destruct k as [|k].
  - cbn [seq flat_map map join]. replace (a + 1 - 1) with a by lia. rewrite Nat.eqb_refl. cbn. rewrite app_nil_r. reflexivity.
  - cbn [seq flat_map]. replace (a =? a + S (S k) - 1) with false by (symmetry; apply Nat.eqb_neq; lia). cbn [negb].
    specialize (IH (S a)). replace (S a + S k - 1) with (a + S (S k) - 1) in IH by lia. cbn [seq flat_map] in IH. rewrite IH by lia. cbn [map join seq]. rewrite <- !app_assoc. reflexivity.
Qed.
Lemma flat_ext {A B} (f g : A -> list B) l : (forall x, In x l -> f x = g x) -> flat_map f l = flat_map g l.
Proof. induction l; cbn; auto. intros H. rewrite H, IHl; auto. Qed.

Section P.
Context {T : Type}.
Variable show : T -> list ascii.

Lemma vector_text (v : list T) : v <> [] -> all_text (vec_out show v) = paren "(" (String ")" newline) (map show v) /\ out_text (vec_out show v) = all_text (vec_out show v).
Proof.
  intros N. assert (L : 0 < length v) by (destruct v; cbn; [congruence|lia]). split.
  - unfold vec_out. rewrite all_app, all_flat. unfold paren. f_equal.
    destruct v as [|d v']; [congruence|]. set (v := d :: v') in *.
    rewrite (flat_ext _ (fun i => show (nth i v d) ++ if negb (i =? 0 + length v - 1) then lit ", " else lit ")
")).
    + rewrite loop_join by auto. f_equal. f_equal. rewrite <- map_map with (f := fun i => nth i v d). f_equal.
      clear. generalize v. clear. induction v as [|x l IH]; cbn; auto. f_equal. rewrite <- seq_shift, map_map. rewrite <- IH at 2. apply map_ext. auto.
    + intros i I. apply in_seq in I. rewrite (nth_error_nth' v d) by lia. rewrite all_app. unfold all_text at 1. cbn [map concat snd]. rewrite app_nil_r. f_equal.
      cbn [plus]. destruct (negb (i =? length v - 1)); reflexivity.
  - unfold vec_out. rewrite all_app, out_app, all_flat, out_flat. f_equal. apply flat_ext. intros i _. destruct (nth_error v i); auto. rewrite all_app, out_app. f_equal. destruct (negb _); reflexivity.
Qed.

Lemma matrix_text r c (at_ : nat -> nat -> T) : 0 < r -> 0 < c ->
  all_text (mx_out show r c at_) = paren "( " (String " " (String ")" newline)) (map (fun row => paren "(" ")" (map show row)) (rows_of r c at_)).
Proof.
  intros R C. unfold mx_out. rewrite all_app, all_flat. unfold paren at 1. f_equal.
  rewrite (flat_ext _ (fun i => paren "(" ")" (map show (map (at_ i) (seq 0 c))) ++ if negb (i =? 0 + r - 1) then lit ", " else lit " )
")).
  - rewrite loop_join by auto. f_equal. f_equal. unfold rows_of. rewrite map_map. reflexivity.
  - intros i _. rewrite !all_app, all_flat. unfold paren. rewrite <- !app_assoc. f_equal.
    rewrite (flat_ext _ (fun j => show (at_ i j) ++ if negb (j =? 0 + c - 1) then lit ", " else lit ")")).
    + rewrite loop_join by auto. rewrite map_map. rewrite <- !app_assoc. f_equal. f_equal. cbn [plus]. destruct (negb (i =? r - 1)); reflexivity.
    + intros j _. rewrite all_app. unfold all_text at 1. cbn [map concat snd]. rewrite app_nil_r. f_equal. cbn [plus]. destruct (negb (j =? c - 1)); reflexivity.
Qed.

Lemma matrix_other r c (at_ : nat -> nat -> T) : out_text (mx_out show r c at_) = list_ascii_of_string "( " ++ repeat "("%char r.
Proof.
  unfold mx_out. rewrite out_app, out_flat. f_equal. transitivity (flat_map (fun _ : nat => ["("%char]) (seq 0 r)).
  - apply flat_ext. intros i _. rewrite !out_app, out_flat. assert (E : flat_map (fun j => out_text ([(Pout, show (at_ i j))] ++ (if negb (j =? c - 1) then [(Pout, lit ", ")] else [(Pout, lit ")")]))) (seq 0 c) = []).
    { induction (seq 0 c) as [|j l IH]; cbn [flat_map]; auto. rewrite IH. destruct (negb (j =? c - 1)); reflexivity. }
    rewrite E. destruct (negb (i =? r - 1)); reflexivity.
  - generalize 0. induction r; intros a; cbn; auto. f_equal. apply IHr.
Qed.

Lemma print_text num r c (at_ : nat -> nat -> T) : all_text (mx_print show num r c at_) =
  concat (map (fun i => num i ++ lit ": " ++ concat (map (fun x => show x ++ lit " ") (nth i (rows_of r c at_) [])) ++ list_ascii_of_string newline) (seq 0 r)).
Proof.
  unfold mx_print. rewrite all_flat, flat_map_concat_map. f_equal. apply map_ext_in. intros i I. apply in_seq in I.
  assert (E : nth i (rows_of r c at_) [] = map (at_ i) (seq 0 c)).
  { unfold rows_of. rewrite nth_indep with (d' := (fun i => map (at_ i) (seq 0 c)) 0) by (rewrite map_length, seq_length; lia). rewrite (map_nth (fun i => map (at_ i) (seq 0 c))). rewrite seq_nth by lia. reflexivity. }
  rewrite E, map_map, !all_app, all_flat, flat_map_concat_map. unfold all_text at 1. cbn [map concat snd]. rewrite app_nil_r, <- app_assoc. apply f_equal. apply f_equal. apply f_equal2; [|reflexivity].
  apply f_equal. apply map_ext. intros j. unfold all_text. cbn [map concat snd]. rewrite app_nil_r. reflexivity.
Qed.
End P.

Lemma vector_empty : exists v : list bool, all_text (vec_out (fun _ => []) v) = lit "(" /\ all_text (vec_out (fun _ => []) v) <> paren "(" (String ")" newline) [].
Proof. exists []. split. reflexivity. vm_compute. discriminate. Qed.
Lemma matrix_split : exists (r c : nat) (at_ : nat -> nat -> bool), out_text (mx_out (fun b : bool => lit (if b then "1" else "0")) r c at_) <>
  paren "( " (String " " (String ")" newline)) (map (fun row => paren "(" ")" (map (fun b : bool => lit (if b then "1" else "0")) row)) (rows_of r c at_)).
Proof. exists 1, 1, (fun _ _ => true). vm_compute. discriminate. Qed.
