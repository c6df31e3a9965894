(** Cases for the statements about the text of the parameters. *)
From Coq Require Import Ascii String List Arith ZArith Reals Bool Lia Lra.
From Verif Require Import Base ParamModel ParamSpec MatrixModel ParserModel DataModel FmtModel FmtSpec ScatModel SaveModel ReportModel ReportSpec ReportEx OutModel OutSpec OutFinal FitTextModel FitTextSpec.
Import ListNotations.
Local Open Scope R_scope.

(** five parameters, one of them fixed and one infinite *)
Definition tx_h : list (pop xdbl) := [PSet 20 (real 2); PSet 10 (real (-1)); PSet 5 (real 3); PFix 5; PSet 7 (Inf true); PSet 1001 Nan].
Definition tx_cov (i j : nat) : R := match i, j with 0%nat, 1%nat | 1%nat, 0%nat => -39 / 10 | _, _ => if (i =? j)%nat then 4 else 0 end.
Definition tx_row (i : nat) : list xdbl := map (fun j => real (tx_cov i j)) [0; 1; 2; 3; 4]%nat.
Definition tx_m : @matrix xdbl := mkMx 5 5 (tx_row 0 ++ tx_row 1 ++ tx_row 2 ++ tx_row 3 ++ tx_row 4).
Definition tx_f : fitdata xdbl := mkFd (prun ptab_init tx_h) 2 [real 2; real 2; real 2; real 2; real 2] tx_m 4.
Lemma tx_tab : fd_tab tx_f = mkPtab [real 2; real (-1); real 3; Inf true; Nan] [true; true; false; true; true] [20; 10; 5; 7; 1001]%Z.
Proof. reflexivity. Qed.
Lemma tx_sized : sized tx_f.
Proof. unfold sized. rewrite tx_tab. cbn. auto. Qed.
Lemma real_ok x : x_ok (real x). Proof. apply dbl_of_ok. Qed.
Lemma rev_tx : rev tx_h = [PSet 1001 Nan; PSet 7 (Inf true); PFix 5; PSet 5 (real 3); PSet 10 (real (-1)); PSet 20 (real 2)].
Proof. reflexivity. Qed.
Lemma tx_ok : all_ok tx_h tx_f (real (12 / 10)) (real (1 / 10)).
Proof.
  split; [|split; [|split]].
  - intros a v. rewrite rev_tx. cbn [last_set]. repeat (destruct (_ =? _)%Z; [intros [= <-]; try apply real_ok; exact I|]). discriminate.
  - apply Forall_forall. intros x X. cbn [fd_dp tx_f In] in X. repeat (destruct X as [<-|X]; [apply real_ok|]). destruct X.
  - cbn [mdata tx_f fd_cov tx_m]. unfold tx_row. rewrite !Forall_app. repeat split; apply Forall_forall; intros x X; apply in_map_iff in X as (j & <- & _); apply real_ok.
  - split; apply real_ok.
Qed.
Lemma tx_case : fd_tab tx_f = prun ptab_init tx_h /\ sized tx_f /\ all_ok tx_h tx_f (real (12 / 10)) (real (1 / 10)) /\ fd_iter tx_f <> 0%Z /\
  flag_of 10 (rev tx_h) = Some true /\ flag_of 5 (rev tx_h) = Some false /\ last_set 7 (rev tx_h) = Some (Inf true).
Proof. split. reflexivity. split. exact tx_sized. split. exact tx_ok. split. discriminate. repeat split; reflexivity. Qed.
Lemma tx_flags : NoDup [20; 10; 7; 1001]%Z /\ NoDup [5]%Z /\
  (forall a, In a [20; 10; 7; 1001]%Z <-> flag_of a (rev tx_h) = Some true) /\ (forall a, In a [5]%Z <-> flag_of a (rev tx_h) = Some false).
Proof.
  split. repeat constructor; cbn; lia. split. repeat constructor; cbn; lia.
  assert (E : forall a, flag_of a (rev tx_h) = if (1001 =? a)%Z then Some true else if (7 =? a)%Z then Some true else if (5 =? a)%Z then Some false else if (10 =? a)%Z then Some true else if (20 =? a)%Z then Some true else None).
  { intros a. rewrite rev_tx. cbn [flag_of]. change (u32 1001) with 1001%Z. change (u32 7) with 7%Z. change (u32 5) with 5%Z. change (u32 10) with 10%Z. change (u32 20) with 20%Z.
    destruct (Z.eqb_spec 1001 a) as [<-|]; [reflexivity|]. destruct (Z.eqb_spec 7 a) as [<-|]; [reflexivity|]. destruct (Z.eqb_spec 5 a) as [<-|]; [reflexivity|].
    destruct (Z.eqb_spec 10 a) as [<-|]; [reflexivity|]. destruct (Z.eqb_spec 20 a) as [<-|]; reflexivity. }
  split; intros a; rewrite E; cbn [In];
    destruct (Z.eqb_spec 1001 a), (Z.eqb_spec 7 a), (Z.eqb_spec 5 a), (Z.eqb_spec 10 a), (Z.eqb_spec 20 a); split; intros H; try discriminate; try reflexivity; try lia.
Qed.
Lemma tx_corr_case :
  (forall i j, (i < 5)%nat -> (j < 5)%nat -> entry (fd_cov tx_f) i j = Some (real (tx_cov i j))) /\
  (forall i, (i < 5)%nat -> nth_error (fd_dp tx_f) i = Some (real 2)) /\ Rabs (tx_cov 0 1) > 8 / 10 * (2 * 2).
Proof.
  split; [|split].
  - intros i j I J. do 5 (destruct i as [|i]; [do 5 (destruct j as [|j]; [reflexivity|]); lia|]). lia.
  - intros i I. do 5 (destruct i as [|i]; [reflexivity|]). lia.
  - cbn [tx_cov]. rewrite Rabs_left; lra.
Qed.
