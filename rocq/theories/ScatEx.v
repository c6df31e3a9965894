(** Concrete cases for elements, scattering factors and phase fractions. *)
From Coq Require Import Ascii String List Arith ZArith Reals Bool Lia Lra.
From Verif Require Import Base ParserModel RSum PdfModel DataModel DataProof ElementTable ScatModel ScatSpec ScatProof FracProof.
Import ListNotations.
Local Open Scope R_scope.

Definition sodium : element := mkEl "Na" "Sodium" 11%Z (229897702%Z, 7%nat) (11%Z, 0%nat) (3632%Z, 3%nat).
Lemma ex_mean : means (chars "sODium") sodium /\ means (chars "na") sodium /\ means (chars "NA") sodium.
Proof. split; [|split]; apply lookup_ok; vm_compute; reflexivity. Qed.
Lemma ex_deut : exists e, means (chars "2-h") e /\ means (chars "D") e /\ means (chars "deuterium") e.
Proof. eexists. split; [|split]; apply lookup_ok; vm_compute; reflexivity. Qed.
Lemma ex_none : forall e, ~ means (chars "Xx") e.
Proof. apply lookup_none. vm_compute. reflexivity. Qed.
Lemma ex_same : same_but_case (chars "sODium") (chars "SodIUM").
Proof. apply same_case_low. vm_compute. reflexivity. Qed.

(** two phases; sodium gets an X-ray factor in phase 0, both factors in phase 1,
    where it is reset *)
Definition ex_ops : list scat_op :=
  [NewPhase; NewPhase; SetScat 0 "X" (chars "na") 5; SetScat 1 "x" (chars "Sodium") 6; SetScat 1 "n" (chars "NA") 7;
   GetScat 0 "n" (chars "Xx"); ResetScat 1 (chars "na"); SetScat 1 "N" (chars "Na") 8].
Lemma ex_factors :
  factor_is 0 sodium XRay (rev ex_ops) 5 /\ factor_is 0 sodium Neutron (rev ex_ops) (3632 / 10 ^ 3) /\
  factor_is 1 sodium XRay (rev ex_ops) 11 /\ factor_is 1 sodium Neutron (rev ex_ops) 8.
Proof.
  pose proof ex_mean as (A & B & C). assert (means (chars "Na") sodium) as D by (apply lookup_ok; vm_compute; reflexivity).
  assert (forall r, radiation_of "X" r -> r = XRay) as RX by (intros [|]; simpl; intros [H|H]; auto; discriminate).
  assert (forall r, radiation_of "N" r -> r = Neutron) as RN by (intros [|]; simpl; intros [H|H]; auto; discriminate).
  assert (forall r, radiation_of "n" r -> r = Neutron) as Rn by (intros [|]; simpl; intros [H|H]; auto; discriminate).
  assert (standard sodium XRay = 11) as S by (unfold standard; simpl; field).
  unfold ex_ops. cbn [rev app]. split; [|split; [|split]].
  - apply FI_set_other; [auto|]. apply FI_reset_other; [auto|]. apply FI_get. do 2 (apply FI_set_other; [auto|]). apply FI_set; auto; simpl; auto.
  - apply FI_set_other; [auto|]. apply FI_reset_other; [auto|]. apply FI_get. do 2 (apply FI_set_other; [auto|]).
    apply FI_set_other. right. right. left. intros H. apply RX in H. discriminate. apply FI_new, FI_new. apply (FI_start 0 sodium Neutron).
  - apply FI_set_other. right. right. left. intros H. apply RN in H. discriminate. rewrite <- S. apply FI_reset. auto.
  - apply FI_set; auto; simpl; auto.
Qed.
(** phase fractions: phases with scales 1 and 3, one phase not selected between *)
Definition ex_sel : list (option fphase) :=
  [Some (mkFp 1 (1/10) 2 [(1, 2, 4); (1, 2, 4)]); None; Some (mkFp 3 (2/10) 1 [(1, 2, 8)])].
Lemma ex_sound : sound_selection ex_sel /\ one_used ex_sel.
Proof.
  split.
  - unfold ex_sel. repeat constructor; unfold scatters, atom_sum; simpl; try lra.
  - exists (mkFp 1 (1/10) 2 [(1, 2, 4); (1, 2, 4)]). simpl. split; auto. lra.
Qed.
(** the fractions by atoms are 1/4, 0, 3/4 *)
Lemma ex_fractions : map fst (fractions ByAtom ex_sel) = [Some (1/4); Some 0; Some (3/4)].
Proof.
  assert (total ByAtom ex_sel (map scale_of ex_sel) = 1) as T.
  { unfold total, ex_sel, part, per_scale, atom_sum. simpl. field. }
  rewrite fractions_eq by (apply sound_scatter, ex_sound). rewrite T. destruct (Rlt_dec 0 1); [|lra].
  unfold ex_sel, part, per_scale, atom_sum. simpl. f_equal; [f_equal; field | f_equal; [f_equal; field | f_equal; f_equal; field]].
Qed.
(** a negative scale: the total is negative *)
Definition ex_neg : list (option fphase) := [Some (mkFp (-1) 1 1 [(1, 2, 4)]); Some (mkFp (1/2) 1 1 [(1, 2, 4)])].
Lemma ex_neg_ok : all_scatter ex_neg /\ total ByCell ex_neg (map scale_of ex_neg) <= 0.
Proof.
  split. unfold ex_neg, all_scatter, scatters, atom_sum. repeat constructor; simpl; lra.
  unfold total, ex_neg, part, per_scale, atom_sum. simpl. apply Rminus_le. replace (_ - 0) with (- (1/8)) by field. lra.
Qed.
