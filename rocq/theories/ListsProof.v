(** Proofs about data given as Python lists. *)
From Coq Require Import List Arith ZArith Reals Bool Lia Lra.
From Verif Require Import Base ListsModel ListsSpec.
Import ListNotations.

Lemma from_nums xs : from_pylist (PyList (map PyNum xs)) (length xs) = (xs, false).
Proof.
  unfold from_pylist. f_equal.
  - induction xs as [|x xs IH]; cbn; auto. f_equal. rewrite <- seq_shift, map_map. rewrite <- IH at 2. apply map_ext. auto.
  - apply not_true_is_false. intros E. apply existsb_exists in E. destruct E as (i & I & E). apply in_seq in I. rewrite (map_nth_error PyNum i xs (d := nth i xs 0%R)) in E. discriminate. apply nth_error_nth'. lia.
Qed.
Lemma from_nums' xs n : n = length xs -> from_pylist (PyList (map PyNum xs)) n = (xs, false).
Proof. intros ->. apply from_nums. Qed.
Lemma size_nums xs : list_size (PyList (map PyNum xs)) = (Z.of_nat (length xs), false).
Proof. cbn. rewrite map_length. reflexivity. Qed.

Lemma numbers_ok reads r G dG rs Gs : is_list r rs -> is_list G Gs -> Gs <> [] -> length rs = length Gs -> (dG = PyNone \/ exists ds, is_list dG ds /\ length ds = length Gs) ->
  let c := read_arrays reads r G dG in exists ds, c_given c = Some (rs, Gs, ds) /\ (dG = PyNone <-> ds = None) /\ (forall d, ds = Some d -> is_list dG d) /\
  seen_by_python c = if reads (rs, Gs, ds) then SReturns else SDataError.
Proof.
  intros -> -> NE L H. unfold read_arrays. assert (N0 : (length Gs =? 0) = false) by (apply Nat.eqb_neq; destruct Gs; [congruence|discriminate]). rewrite !size_nums, L. assert (Z0 : (Z.of_nat (length Gs) <? 0)%Z = false) by (apply Z.ltb_ge; lia). destruct H as [->|(ds & -> & LD)].
  - rewrite !Z.eqb_refl, Z0, Nat2Z.id. cbn [negb orb]. rewrite (from_nums' rs), (from_nums' Gs) by congruence. rewrite N0. exists None. destruct (reads (rs, Gs, None)); cbn; repeat split; auto; discriminate.
  - rewrite size_nums, LD, !Z.eqb_refl, Z0, Nat2Z.id. cbn [negb orb]. rewrite (from_nums' rs), (from_nums' Gs), (from_nums' ds) by congruence. rewrite N0. exists (Some ds). destruct (reads (rs, Gs, Some ds)); cbn; repeat split; auto; try discriminate; intros d E; injection E as <-; reflexivity.
Qed.

Lemma lengths_differ reads r G dG m n : some_list r m -> some_list G n -> m <> n \/ (exists k, some_list dG k /\ k <> n) \/ dG = PyOther ->
  let c := read_arrays reads r G dG in seen_by_python c = SValueError /\ c_given c = None /\ c_leaked c = 0.
Proof.
  intros (lr & -> & <-) (lG & -> & <-) H. unfold read_arrays, list_size. destruct (Z.eqb_spec (Z.of_nat (length lr)) (Z.of_nat (length lG))) as [E|E]; cbn [negb orb].
  - destruct H as [H|[(k & (l & -> & <-) & N)| ->]]. lia. destruct (Z.eqb_spec (Z.of_nat (length l)) (Z.of_nat (length lG))). lia. cbn. auto.
    destruct (Z.eqb_spec (-1) (Z.of_nat (length lG))). lia. cbn. auto.
  - destruct dG; cbn; auto.
Qed.
Lemma one_list reads r G dG : (no_list r /\ (exists n, some_list G n)) \/ (no_list G /\ (exists n, some_list r n)) ->
  let c := read_arrays reads r G dG in seen_by_python c = SValueError /\ c_given c = None /\ c_leaked c = 0.
Proof.
  intros H. assert (E : exists x y e1 e2, list_size r = (x, e1) /\ list_size G = (y, e2) /\ x <> y).
  { destruct H as [[[->| ->] (n & l & -> & _)]|[[->| ->] (n & l & -> & _)]]; cbn; eexists _, _, _, _; (split; [reflexivity|]); (split; [reflexivity|]); lia. }
  destruct E as (x & y & e1 & e2 & E1 & E2 & N). unfold read_arrays. rewrite E1, E2. destruct (match dG with PyNone => (y, false) | _ => list_size dG end) as [z e3].
  destruct (Z.eqb_spec x y); [contradiction|]. cbn. auto.
Qed.
Lemma no_lists reads r G dG : no_list r -> no_list G -> no_list dG -> seen_by_python (read_arrays reads r G dG) = SKilled.
Proof. intros [->| ->] [->| ->] [->| ->]; reflexivity. Qed.

Lemma leaked_arrays reads r G dG : c_leaked (read_arrays reads r G dG) = match seen_by_python (read_arrays reads r G dG) with SDataError => match dG with PyNone => 2 | _ => 3 end | _ => 0 end.
Proof.
  unfold read_arrays. destruct (list_size G) as [len e1], (list_size r) as [rlen e2]. destruct (match dG with PyNone => (len, false) | _ => list_size dG end) as [dlen e3].
  destruct (negb (rlen =? len)%Z || negb (dlen =? len)%Z). reflexivity. destruct (len <? 0)%Z. reflexivity. cbv zeta.
  destruct (from_pylist r (Z.to_nat len)) as [rs e4], (from_pylist G (Z.to_nat len)) as [Gs e5]. destruct dG as [l| |].
  - destruct (from_pylist (PyList l) (Z.to_nat len)) as [d e]. destruct (Z.to_nat len =? 0); [reflexivity|]. destruct (reads (rs, Gs, Some d)); unfold seen_by_python; cbn [c_leaked c_end c_set]; auto. match goal with |- context [if ?b then _ else _] => destruct b end; auto.
  - destruct (Z.to_nat len =? 0); [reflexivity|]. destruct (reads (rs, Gs, None)); unfold seen_by_python; cbn [c_leaked c_end c_set]; auto. match goal with |- context [if ?b then _ else _] => destruct b end; auto.
  - destruct (from_pylist PyOther (Z.to_nat len)) as [d e]. destruct (Z.to_nat len =? 0); [reflexivity|]. destruct (reads (rs, Gs, Some d)); unfold seen_by_python; cbn [c_leaked c_end c_set]; auto. match goal with |- context [if ?b then _ else _] => destruct b end; auto.
Qed.

(** a value that is no number *)
Lemma bad_values reads lr lG : length lr = length lG -> In PyNotNum lG ->
  let c := read_arrays reads (PyList lr) (PyList lG) PyNone in
  exists rs Gs, c_given c = Some (rs, Gs, None) /\ (forall i, nth_error lG i = Some PyNotNum -> nth_error Gs i = Some (-1)%R) /\
  seen_by_python c = if reads (rs, Gs, None) then SSystemError else SDataError.
Proof.
  intros L I. unfold read_arrays, list_size. rewrite L, !Z.eqb_refl. assert (Z0 : (Z.of_nat (length lG) <? 0)%Z = false) by (apply Z.ltb_ge; lia). rewrite Z0, Nat2Z.id. cbn [negb orb].
  destruct (from_pylist (PyList lr) (length lG)) as [rs e4] eqn:Er. destruct (from_pylist (PyList lG) (length lG)) as [Gs e5] eqn:EG. exists rs, Gs.
  assert (EE : e5 = true). { unfold from_pylist in EG. injection EG as _ <-. apply existsb_exists. destruct (In_nth_error _ _ I) as (i & E). exists i. split. apply in_seq. split. lia. apply nth_error_Some. congruence. rewrite E. reflexivity. }
  subst e5. assert (N0 : (length lG =? 0) = false) by (apply Nat.eqb_neq; destruct lG; [destruct I|discriminate]). cbv zeta. rewrite N0. split; [|split].
  - destruct (reads (rs, Gs, None)); reflexivity.
  - intros i E. unfold from_pylist in EG. injection EG as <-. rewrite (map_nth_error _ i (seq 0 (length lG)) (d := i)). rewrite E. reflexivity.
    assert (i < length lG) by (apply nth_error_Some; congruence). rewrite (nth_error_nth' _ 0) by (rewrite seq_length; auto). rewrite seq_nth; auto.
  - destruct (reads (rs, Gs, None)); unfold seen_by_python; cbn [c_end c_set]; auto. rewrite orb_true_r. cbn. destruct e4; reflexivity.
Qed.

Lemma empty_lists reads dG : dG = PyNone \/ dG = PyList [] -> seen_by_python (read_arrays reads (PyList []) (PyList []) dG) = SUndefined.
Proof. intros [->| ->]; reflexivity. Qed.
Lemma tuples_kill : exists reads r G dG, seen_by_python (read_arrays reads r G dG) = SKilled.
Proof. exists (fun _ => true), PyOther, PyOther, PyNone. reflexivity. Qed.
Lemma wrong_stored : exists reads r G dG, seen_by_python (read_arrays reads r G dG) = SSystemError /\ c_given (read_arrays reads r G dG) = Some ([1; 2], [3; -1], None)%R /\ reads ([1; 2], [3; -1], None)%R = true.
Proof. exists (fun _ => true), (PyList [PyNum 1; PyNum 2]), (PyList [PyNum 3; PyNotNum]), PyNone. split. reflexivity. split; reflexivity. Qed.
Lemma leak_case : exists reads r G dG, c_leaked (read_arrays reads r G dG) = 3.
Proof. exists (fun _ => false), (PyList [PyNum 1]), (PyList [PyNum 1]), (PyList [PyNum 1]). reflexivity. Qed.

(** any lists of one length *)
Lemma from_any l n : n = length l -> exists e, from_pylist (PyList l) n = (map taken l, e) /\ (e = false <-> all_numbers l).
Proof.
  intros ->. unfold from_pylist. eexists. split.
  - f_equal. induction l as [|v l IH]; cbn; auto. f_equal. destruct v; reflexivity. rewrite <- seq_shift, map_map. rewrite <- IH. apply map_ext. auto.
  - unfold all_numbers. rewrite <- not_true_iff_false. apply not_iff_compat. rewrite existsb_exists. split.
    + intros (i & I & E). apply in_seq in I. destruct (nth_error l i) as [[x|]|] eqn:N; try discriminate. apply nth_error_In in N. auto. apply nth_error_None in N. lia.
    + intros I. destruct (In_nth_error _ _ I) as (i & E). exists i. split. apply in_seq. split. lia. apply nth_error_Some. congruence. rewrite E. reflexivity.
Qed.
Lemma any_values reads lr lG ld : lG <> [] -> length lr = length lG -> (forall l, ld = Some l -> length l = length lG) ->
  let c := read_arrays reads (PyList lr) (PyList lG) (match ld with Some l => PyList l | None => PyNone end) in
  let d := (map taken lr, map taken lG, option_map (map taken) ld) in
  let good := all_numbers lr /\ all_numbers lG /\ (forall l, ld = Some l -> all_numbers l) in
  c_given c = Some d /\ (reads d = false -> seen_by_python c = SDataError) /\
  (reads d = true -> good -> seen_by_python c = SReturns) /\ (reads d = true -> ~ good -> seen_by_python c = SSystemError).
Proof.
  intros NE L LD. assert (N0 : (length lG =? 0) = false) by (apply Nat.eqb_neq; destruct lG; [congruence|discriminate]).
  assert (Z0 : (Z.of_nat (length lG) <? 0)%Z = false) by (apply Z.ltb_ge; lia).
  destruct (from_any lr (length lG)) as (e4 & E4 & B4). auto. destruct (from_any lG (length lG) eq_refl) as (e5 & E5 & B5).
  destruct ld as [l|].
  - specialize (LD l eq_refl). destruct (from_any l (length lG)) as (e6 & E6 & B6). auto.
    unfold read_arrays, list_size. rewrite L, LD, !Z.eqb_refl, Z0, Nat2Z.id. cbn [negb orb]. rewrite E4, E5, E6. cbv zeta. rewrite N0. cbn [option_map].
    destruct (reads (map taken lr, map taken lG, Some (map taken l))); unfold seen_by_python; cbn [c_given c_end c_set]; repeat split; try discriminate; auto.
    + intros _ (A & B & C). specialize (C l eq_refl). rewrite (proj2 B4 A), (proj2 B5 B), (proj2 B6 C). reflexivity.
    + intros _ NG. destruct e4; [reflexivity|]. destruct e5; [reflexivity|]. destruct e6; [reflexivity|]. exfalso. apply NG. split. tauto. split. tauto. intros x E. injection E as <-. tauto.
  - unfold read_arrays, list_size. rewrite L, !Z.eqb_refl, Z0, Nat2Z.id. cbn [negb orb]. rewrite E4, E5. cbv zeta. rewrite N0. cbn [option_map].
    destruct (reads (map taken lr, map taken lG, None)); unfold seen_by_python; cbn [c_given c_end c_set]; repeat split; try discriminate; auto.
    + intros _ (A & B & _). rewrite (proj2 B4 A), (proj2 B5 B). reflexivity.
    + intros _ NG. destruct e4; [reflexivity|]. destruct e5; [reflexivity|]. exfalso. apply NG. split. tauto. split. tauto. discriminate.
Qed.
