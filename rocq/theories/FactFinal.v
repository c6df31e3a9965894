(** Proofs: which calls change the calculated PDF. *)
From Coq Require Import Ascii List Arith ZArith Reals Bool Lia Lra.
From Verif Require Import Base Util RSum ParserModel MetricModel PdfModel ElementTable ScatModel ScatSpec ScatProof PdfSpec FactModel FactSpec FactProof FactPdf.
Import ListNotations.
Local Open Scope R_scope.

Lemma has_symbol cs s ph p i k : history (rev cs) s ph -> nth_error (kw_ph (krun elements cs)) p = Some k -> (i < length (kp_types k))%nat -> exists q, symbol_of ph p i q.
Proof.
  intros H E L. destruct (krun_inv cs s ph H) as (_ & LP & P).
  destruct (nth_error ph p) as [syms|] eqn:EP. 2: { apply nth_error_None in EP. assert (nth_error (kw_ph (krun elements cs)) p <> None) as X by congruence. apply nth_error_Some in X. lia. }
  pose proof (F2_length _ _ _ (P p k syms E EP)) as LL.
  destruct (nth_error syms i) as [q|] eqn:EQ. exists q, syms. auto. apply nth_error_None in EQ. lia.
Qed.
Lemma unrelated_pdf cs s ph c r d psel psel' fuel : history (rev cs) s ph -> radiation_of (cd_type d) r ->
  (forall p e, nth_error psel p = Some (Some e) -> unrelated ph p r c) ->
  has_factors (krun elements cs) (cd_type d) psel -> has_factors (krun elements (cs ++ [c])) (cd_type d) psel' ->
  Forall2 same_structure psel psel' -> determine fuel d psel' = determine fuel d psel.
Proof.
  intros H Rr U A B F. apply pdf_same.
  assert (X : forall n x y, nth_error psel n = Some x -> nth_error psel' n = Some y -> same_structure x y -> same_but_factors (cd_type d) x y).
  { intros n x y Nx Ny S. destruct x as [e|], y as [e'|]; cbn in S |- *; try contradiction; auto. destruct S as (atoms & FA & ->).
    exists atoms, 1. split. lra. split; auto. destruct (A n e Nx) as ((k & EK & LK) & A2). destruct (B n _ Ny) as (_ & B2). cbn [en_ph] in B2.
    assert (Y : forall i a a', nth_error (cp_atoms (en_ph e)) i = Some a -> nth_error atoms i = Some a' -> at_sf a' (cd_type d) = 1 * at_sf a (cd_type d)).
    { intros i a a' E1 E2. assert (L1 : (i < natoms (en_ph e))%nat) by (unfold natoms; apply nth_error_Some; congruence).
      destruct (has_symbol cs s ph n i k H EK ltac:(lia)) as (q & SY). pose proof (unrelated_ok cs s ph n i q (cd_type d) r c H SY Rr (U n e Nx)) as E.
      rewrite A2 in E by auto. rewrite B2 in E by (unfold natoms in *; cbn [cp_atoms]; rewrite <- (F2_length _ _ _ FA); auto).
      unfold atom_no in E. cbn [cp_atoms] in E. rewrite (nth_error_nth _ _ _ E1), (nth_error_nth _ _ _ E2) in E. inversion E. ring. }
    clear -FA Y. induction FA as [|a a' l l' (P1 & P2 & P3) FA IH]; constructor.
    - repeat split; auto. apply (Y 0%nat); reflexivity.
    - apply IH. intros i b b' E1 E2. apply (Y (S i)); auto. }
  clear -F X. revert X. induction F as [|x y l l' S F IH]; intros X; constructor.
  - apply (X 0%nat); auto.
  - apply IH. intros n a b E1 E2. apply (X (Datatypes.S n)); auto.
Qed.
