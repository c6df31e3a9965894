(** Cases for the statements about the results text. *)
From Coq Require Import Ascii String List Arith ZArith Reals Bool Lia Lra Permutation Sorted.
From Verif Require Import Base ParamModel ParamSpec ParamProof OrderModel MatrixModel ParserModel DataModel FmtModel ElementTable ScatModel SaveModel ReportModel ReportSpec ReportProof ReportFinal ReportSel.
Import ListNotations.
Local Open Scope R_scope.

Definition ex_h : list (pop R) := [PSet 20 2; PSet 10 1; PSet 5 3; PFix 5].
Definition ex_cov (i j : nat) : R := match i, j with 0%nat, 0%nat | 1%nat, 1%nat => 4 | 0%nat, 1%nat | 1%nat, 0%nat => 36 / 10 | _, _ => 0 end.
Definition ex_m : @matrix xdbl := mkMx 3 3 (map real [4; 36 / 10; 0; 36 / 10; 4; 0; 0; 0; 0]).
Definition ex_f (dp : list xdbl) : fitdata R := mkFd (prun ptab_init ex_h) 2 dp ex_m 4.
Definition ex_dp : list xdbl := [real (sqrt 4); real (sqrt 4); real (sqrt 0)].
Lemma ex_tab dp : fd_tab (ex_f dp) = mkPtab [2; 1; 3] [true; true; false] [20; 10; 5]%Z.
Proof. reflexivity. Qed.
Lemma ex_sized dp : length dp = 3%nat -> sized (ex_f dp).
Proof. intros L. unfold sized. rewrite ex_tab. cbn. auto. Qed.
Lemma ex_entry dp i j : (i < 3)%nat -> (j < 3)%nat -> entry (fd_cov (ex_f dp)) i j = Some (real (ex_cov i j)).
Proof. intros I J. do 3 (destruct i as [|i]; [do 3 (destruct j as [|j]; [reflexivity|]); lia|]). lia. Qed.
Lemma ex_dev i : (i < 3)%nat -> nth_error ex_dp i = Some (real (sqrt (ex_cov i i))).
Proof. intros I. do 3 (destruct i as [|i]; [reflexivity|]). lia. Qed.
Lemma ex_pos i : nth_error [true; true; false] i = Some true -> 0 < ex_cov i i.
Proof. destruct i as [|[|[|i]]]; cbn; intros H; try discriminate; try lra. destruct i; discriminate. Qed.
Lemma ex_case : fd_tab (ex_f ex_dp) = prun ptab_init ex_h /\ sized (ex_f ex_dp) /\ fd_iter (ex_f ex_dp) <> 0%Z /\ flag_of 10 (rev ex_h) = Some true /\ flag_of 5 (rev ex_h) = Some false /\
  (forall a, In a [10; 20]%Z <-> flag_of a (rev ex_h) = Some true) /\ (forall a, In a [5]%Z <-> flag_of a (rev ex_h) = Some false).
Proof.
  split. reflexivity. split. apply ex_sized; reflexivity. split. discriminate. split. reflexivity. split. reflexivity.
  split; intros a; (destruct (Z.eq_dec a 20) as [-> |N1]; [vm_compute; intuition congruence|]);
    (destruct (Z.eq_dec a 10) as [-> |N2]; [vm_compute; intuition congruence|]);
    (destruct (Z.eq_dec a 5) as [-> |N3]; [vm_compute; intuition congruence|]);
    (split; intros H; [cbn [In] in H; lia|]);
    change (rev ex_h) with [PFix 5; PSet 5 3; PSet 10 1; PSet 20 2] in H; cbn [flag_of] in H;
    change (u32 5) with 5%Z in H; change (u32 10) with 10%Z in H; change (u32 20) with 20%Z in H;
    rewrite (proj2 (Z.eqb_neq 20 a)), (proj2 (Z.eqb_neq 10 a)), (proj2 (Z.eqb_neq 5 a)) in H by lia; discriminate.
Qed.
Lemma ex_case_corr :
  (forall i j, (i < 3)%nat -> (j < 3)%nat -> entry (fd_cov (ex_f ex_dp)) i j = Some (real (ex_cov i j))) /\
  (forall i, (i < 3)%nat -> nth_error (fd_dp (ex_f ex_dp)) i = Some (real (sqrt (ex_cov i i)))) /\
  (forall i, nth_error (pfree (fd_tab (ex_f ex_dp))) i = Some true -> 0 < sqrt (ex_cov i i)) /\
  Rabs (ex_cov 1 0) > 8 / 10 * (sqrt (ex_cov 1 1) * sqrt (ex_cov 0 0)).
Proof.
  split. apply ex_entry. split. apply ex_dev. split. intros i H. rewrite ex_tab in H. apply sqrt_lt_R0, ex_pos; auto.
  cbn [ex_cov]. replace (sqrt 4) with 2. rewrite Rabs_pos_eq; lra. symmetry. replace 4 with (2 * 2) by lra. apply sqrt_square. lra.
Qed.
Lemma ex_case_bound :
  (forall i, nth_error (pfree (fd_tab (ex_f ex_dp))) i = Some true -> 0 < ex_cov i i) /\
  (forall i j x y, 0 <= x * x * ex_cov i i + x * y * (ex_cov i j + ex_cov j i) + y * y * ex_cov j j) /\ (forall i j, ex_cov i j = ex_cov j i).
Proof.
  split. intros i H. rewrite ex_tab in H. apply ex_pos; auto. split.
  - intros i j x y. destruct i as [|[|i]], j as [|[|j]]; cbn [ex_cov]; pose proof (Rle_0_sqr (x + y)); pose proof (Rle_0_sqr x); pose proof (Rle_0_sqr y); unfold Rsqr in *; lra.
  - intros i j. destruct i as [|[|i]], j as [|[|j]]; reflexivity.
Qed.
Lemma ex_zero_entries : forall i, (i < 3)%nat -> nth_error (fd_dp (ex_f [real 0; real 0; real 0])) i = Some (real 0).
Proof. intros i I. do 3 (destruct i as [|i]; [reflexivity|]). lia. Qed.

(** every pair of refined parameters is reported with an infinite correlation *)
Lemma running_refuted : exists (h : list (pop R)) f (cov : nat -> nat -> R),
  fd_tab f = prun ptab_init h /\ sized f /\ fd_iter f <> 0%Z /\
  (forall i j, (i < length (pid (fd_tab f)))%nat -> (j < length (pid (fd_tab f)))%nat -> entry (fd_cov f) i j = Some (real (cov i j))) /\
  exists r ps it cs a b c, save_res f = Ok r /\ rp_body r = Some (ps, it, cs) /\ In (a, b, c) cs /\ forall x, c <> real x.
Proof.
  exists ex_h, (ex_f [real 0; real 0; real 0]), ex_cov. split. reflexivity. split. apply ex_sized; reflexivity. split. discriminate. split. apply ex_entry.
  destruct (report_zero ex_h (ex_f [real 0; real 0; real 0]) 10 ex_cov) as (r & ps & it & cs & E & B & IN).
  reflexivity. apply ex_sized; reflexivity. discriminate. reflexivity. apply ex_entry. apply ex_zero_entries.
  exists r, ps, it, cs, 10%Z, 20%Z, (Inf false). split; auto. split; auto. split.
  - apply IN. split. lia. split. reflexivity. split. reflexivity. exists 1%nat, 0%nat. split. reflexivity. split. reflexivity. left. split; auto. cbn. lra.
  - intros x. discriminate.
Qed.
Lemma added_refuted : exists (h : list (pop R)) f k v, fd_tab f = prun ptab_init h /\ sized f /\ fd_iter f <> 0%Z /\
  save_res (mkFd (prun ptab_init (h ++ [PSet k v])) (fd_nvar f) (fd_dp f) (fd_cov f) (fd_iter f)) = UB.
Proof.
  exists ex_h, (ex_f ex_dp), 30%Z, 1. split. reflexivity. split. apply ex_sized; reflexivity. split. discriminate.
  apply (report_added ex_h). reflexivity. apply ex_sized; reflexivity. discriminate. reflexivity.
Qed.

(** * selected atoms *)
Lemma sel_same ats ign ign' : Forall symbol ats -> sel_text ats ign = sel_text ats ign' ->
  forall k, (k < length ats)%nat -> (In k ign <-> In k ign').
Proof.
  intros F E k K. destruct (nth_ex ats k K) as [a A]. pose proof (sel_named ats ign k a F A) as N. rewrite E, (sel_named ats ign' k a F A) in N.
  destruct (in_dec Nat.eq_dec k ign), (in_dec Nat.eq_dec k ign'); tauto.
Qed.
Lemma sel_outcome psel ip ij ats ii jj : nth_error psel ip = Some (Some (ats, ii, jj)) ->
  selected_atoms psel ip "i" = Ok (sel_text ats ii) /\ selected_atoms psel ip "j" = Ok (sel_text ats jj) /\
  (ij <> "i"%char -> ij <> "j"%char -> selected_atoms psel ip ij = Err ErrValue).
Proof.
  intros P. unfold selected_atoms. rewrite (rd_some _ _ _ P). cbn [obind]. split. reflexivity. split. reflexivity.
  intros I J. apply Ascii.eqb_neq in I, J. rewrite I, J. reflexivity.
Qed.
Lemma sel_null psel ip ij : nth_error psel ip = Some None -> selected_atoms psel ip ij = Ok [].
Proof. intros P. unfold selected_atoms. rewrite (rd_some _ _ _ P). reflexivity. Qed.
Lemma sel_read psel ip ats ii jj : nth_error psel ip = Some (Some (ats, ii, jj)) -> Forall symbol ats ->
  exists ti tj, selected_atoms psel ip "i" = Ok ti /\ selected_atoms psel ip "j" = Ok tj /\
  forall k a, nth_error ats k = Some a ->
    (named (upper a) (int_text (Z.of_nat k + 1)) (words ti) <-> ~ In k ii) /\
    (named (upper a) (int_text (Z.of_nat k + 1)) (words tj) <-> ~ In k jj).
Proof.
  intros P F. destruct (sel_outcome psel ip "i" ats ii jj P) as (A & B & _). exists (sel_text ats ii), (sel_text ats jj). split; auto. split; auto.
  intros k a K. split; apply sel_named; auto.
Qed.
Lemma sel_equal psel ip ats ii jj psel' ii' jj' ij : nth_error psel ip = Some (Some (ats, ii, jj)) -> nth_error psel' ip = Some (Some (ats, ii', jj')) -> Forall symbol ats ->
  ij = "i"%char \/ ij = "j"%char -> selected_atoms psel ip ij = selected_atoms psel' ip ij ->
  forall k, (k < length ats)%nat -> (In k (if Ascii.eqb ij "i" then ii else jj) <-> In k (if Ascii.eqb ij "i" then ii' else jj')).
Proof.
  intros P P' F IJ E. destruct (sel_outcome psel ip "i" ats ii jj P) as (A & B & _). destruct (sel_outcome psel' ip "i" ats ii' jj' P') as (A' & B' & _).
  destruct IJ as [-> | ->]; cbn [Ascii.eqb Bool.eqb].
  - apply sel_same; auto. rewrite A, A' in E. congruence.
  - apply sel_same; auto. rewrite B, B' in E. congruence.
Qed.
Definition nacl : list text := map chars ["Na"; "Na"; "Cl"; "Cl"; "3-He"]%string.
Lemma nacl_symbols : Forall symbol nacl.
Proof.
  assert (S0 : forall s, existsb (fun e => text_eqb s (esym e)) elements = true -> symbol s).
  { intros s H. apply existsb_exists in H as (e & I & E). exists e. split; auto. apply teq; auto. }
  apply Forall_forall. intros s S1. apply S0. revert s S1. apply forallb_forall. vm_compute. reflexivity.
Qed.
Lemma nacl_text : sel_text nacl [1; 4]%nat = chars "  NA 1  CL".
Proof. vm_compute. reflexivity. Qed.
