(** Cases for the log of a refinement. *)
From Coq Require Import Ascii String List Arith ZArith Reals Bool Lia Lra.
From Verif Require Import Base LsModel LsSpec LsRun LsCases LsCases2 ParserModel DataModel FmtModel SaveModel ReportModel OutModel RunLogModel RunLogSpec.
Import ListNotations.
Local Open Scope R_scope.

(** parameters 7, 8, ...; two data sets and three phases *)
Definition lg_some : logd := mkLog (fun l => Z.of_nat l + 6)%Z [(1%Z, [true; false; true]); (2%Z, [])] [1; 2; 3]%Z 2%Z 8.
Lemma some_flat a : log_ok_for lg_some (flat a).
Proof.
  split; [|split]. intros l [A B]. cbn in *. lia. intros l m [A B] [C D] _. cbn in *. lia. repeat constructor.
Qed.
Lemma some_summed : log_ok_for lg_some summed.
Proof.
  split; [|split]. intros l [A B]. cbn in *. lia. intros l m _ _ E. cbn in *. lia. repeat constructor.
Qed.
Lemma some_case toler a : exists running' c' x', fresh false c_new /\ log_ok_for lg_some (flat a) /\ ls_refine toler 101 false c_new (None, flat a) = (running', c', x', Ok tt).
Proof.
  pose proof (flat_refine toler a false c_new None (or_introl eq_refl)) as H. destruct (ls_refine toler 101 false c_new (None, flat a)) as [[[r1 c1] x1] q1].
  exists r1, c1, x1. split. left; auto. split. apply some_flat. destruct H as (-> & _). auto.
Qed.
(** a refinement that fails *)
Lemma fail_case toler : exists running' c' x', fresh false c_new /\ log_ok_for lg_some summed /\ ls_refine toler 101 false c_new (None, summed) = (running', c', x', Err ErrCalculation).
Proof. destruct (summed_fails toler) as (c & x & E & _). exists true, c, x. split. left; auto. split; auto. apply some_summed. Qed.
(** the first lines *)
Lemma start_case : start_text lg_some = Ok (concat (map ln [
  chars "*******************"; chars "Starting refinement"; chars "*******************"; chars " Dataset: 1   Phase: 1  3  "; chars " Dataset: 2   Phase: "])).
Proof. reflexivity. Qed.
(** a data set with a phase that does not exist *)
Lemma start_ub : start_text (mkLog (fun l => Z.of_nat l) [(1%Z, [false; true])] [1]%Z 2%Z 8) = UB.
Proof. reflexivity. Qed.
(** no point more than parameters, or nothing observed *)
Lemma red_case : x_div (Fin (dbl_of 4)) (Fin (dbl_of 0)) = Inf false.
Proof.
  unfold x_div. cbn [dbl_of d_mag d_neg]. rewrite Rabs_R0. destruct (Req_EM_T 0 0); [|congruence]. rewrite Rabs_right by lra. destruct (Req_EM_T 4 0); [lra|].
  destruct (Rlt_dec 4 0); [lra|]. destruct (Rlt_dec 0 0); [lra|]. auto.
Qed.
