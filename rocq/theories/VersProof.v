(** Proofs about the version. *)
From Coq Require Import String List Bool Arith Lia.
From Verif Require Import Base VersModel VersSpec.
Import ListNotations.
Local Open Scope list_scope.

Lemma calls_app h1 : forall st h2, calls st (h1 ++ h2) = (fst (calls (fst (calls st h1)) h2), snd (calls st h1) ++ snd (calls (fst (calls st h1)) h2)).
Proof.
  induction h1 as [|c h1 IH]; intros st h2; cbn [app calls].
  - cbn [fst snd app]. destruct (calls st h2). reflexivity.
  - destruct (version st c) as [st1 r]. rewrite IH. destruct (calls st1 h1) as [s2 l2]. cbn [fst snd]. destruct (calls s2 h2). reflexivity.
Qed.
Lemma version_kept v c : fst (version (Some v) c) = Some v.
Proof. destruct c as [w|]; cbn; auto. destruct (v =? w)%string; auto. Qed.
Lemma calls_kept v h : fst (calls (Some v) h) = Some v.
Proof. induction h as [|c h IH]; cbn [calls]. reflexivity. pose proof (version_kept v c) as K. destruct (version (Some v) c) as [st1 r]. cbn in K. subst st1. destruct (calls (Some v) h). exact IH. Qed.
Lemma calls_none h : never_defined h -> calls None h = (None, map (fun _ => Ok "1.0?"%string) h).
Proof. induction h as [|c h IH]; intros N. reflexivity. assert (c = None) as -> by (apply N; left; auto). cbn [calls version map]. rewrite IH. reflexivity. intros d I. apply N. right. auto. Qed.
Lemma state_defined h w : first_defined h w -> fst (calls None h) = Some w.
Proof. intros (a & b & -> & N). rewrite calls_app, (calls_none a N). cbn [fst snd calls version]. pose proof (calls_kept w b) as K. destruct (calls (Some w) b). exact K. Qed.

Lemma before_definition h : never_defined h -> snd (version (fst (calls None h)) None) = Ok "1.0?"%string.
Proof. intros N. rewrite (calls_none h N). reflexivity. Qed.
Lemma after_definition h w : first_defined h w -> let st := fst (calls None h) in
  snd (version st None) = Ok w /\ snd (version st (Some w)) = Ok w /\ (forall x, x <> w -> version st (Some x) = (st, Err ErrPlain)).
Proof.
  intros F. cbv zeta. rewrite (state_defined h w F). cbn. rewrite String.eqb_refl. repeat split; auto.
  intros x N. destruct (String.eqb_spec w x); congruence.
Qed.

Lemma results_kept v h i r : nth_error (snd (calls (Some v) h)) i = Some (Ok r) -> r = v.
Proof.
  revert i. induction h as [|c h IH]; intros i; cbn [calls]. destruct i; discriminate.
  pose proof (version_kept v c) as K. destruct (version (Some v) c) as [st1 q] eqn:V. cbn in K. subst st1. destruct (calls (Some v) h) as [s2 l] eqn:C. cbn [snd] in *. destruct i as [|i]; cbn [nth_error].
  - intros E. injection E as ->. destruct c as [w|]; cbn in V. destruct (v =? w)%string; congruence. congruence.
  - apply IH.
Qed.
Lemma one_value h w : first_defined h w -> forall i r, nth_error (snd (calls None h)) i = Some (Ok r) -> r = w \/ (r = "1.0?"%string /\ never_defined (firstn (S i) h)).
Proof.
  intros (a & b & -> & N) i r. rewrite calls_app, (calls_none a N). cbn [fst snd]. destruct (Nat.lt_ge_cases i (length a)) as [L|L].
  - rewrite nth_error_app1 by (rewrite map_length; auto). intros E. right. split.
    + apply nth_error_In in E. apply in_map_iff in E. destruct E as (x & E & _). congruence.
    + rewrite firstn_app. replace (S i - length a) with 0 by lia. cbn [firstn]. rewrite app_nil_r. intros c I. apply N. rewrite <- (firstn_skipn (S i) a). apply in_or_app. auto.
  - rewrite nth_error_app2 by (rewrite map_length; auto). rewrite map_length. cbn [calls version]. destruct (calls (Some w) b) as [s l] eqn:C. cbn [snd]. destruct (i - length a) as [|k]; cbn [nth_error]; intros E; left.
    + congruence.
    + apply (results_kept w b k). rewrite C. exact E.
Qed.

Lemma transfer_first p s : p = VText s -> transfer_version None p = (Some s, Ok false).
Proof. intros ->. reflexivity. Qed.
Lemma transfer_again h w : first_defined h w -> let st := fst (calls None h) in
  transfer_version st (VText w) = (st, Ok false) /\ (forall x, x <> w -> transfer_version st (VText x) = (st, Err ErrPlain)).
Proof.
  intros F. cbv zeta. rewrite (state_defined h w F). cbn. rewrite String.eqb_refl. split. reflexivity.
  intros x N. destruct (String.eqb_spec w x). congruence. reflexivity.
Qed.
Lemma transfer_none st p : (forall s, p <> VText s) -> transfer_version st p = (st, Ok true).
Proof. destruct p; intros N; try reflexivity. destruct (N s eq_refl). Qed.
Lemma error_left : exists st p, transfer_version st p = (None, Ok true).
Proof. exists None, NoAttribute. reflexivity. Qed.
