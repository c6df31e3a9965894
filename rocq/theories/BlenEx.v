(** Printed bonds and angles: cases. *)
From Coq Require Import Ascii String.
From Coq Require Import List Arith ZArith Reals Bool Lia Lra.
From Verif Require Import Base ParserModel DataModel FmtModel BlenModel BlenSpec BlenProof BlenEnd.
From Verif Require ReportModel ReportSpec ElementTable ScatModel PdfModel BondModel BondSpec BondEx BondFinal BindModel PyModel.
Import ListNotations BondModel.
Local Open Scope R_scope.

Definition two_kinds (k : nat) : text := match k with 2%nat => chars "Na" | _ => chars "C" end.
Definition renamed (b : bphase) : bphase := mkBp (bp_ph b) (bp_dpos b) two_kinds (bp_lat b) (bp_dgten b).
Lemma is_symbol s : existsb (fun e => text_eqb s (ScatModel.esym e)) ElementTable.elements = true -> ReportSpec.symbol s.
Proof. intros H. apply existsb_exists in H as (e & I & E). apply DataProof.text_eqb_eq in E. exists e. auto. Qed.
Lemma two_ok k : ReportSpec.symbol (two_kinds k).
Proof. destruct k as [|[|[|k]]]; apply is_symbol; vm_compute; reflexivity. Qed.
(** three atoms of two kinds *)
Lemma sample : exists b, ordinary b /\ BondSpec.fresh b /\ BondSpec.good_cell (bp_ph b) /\
  BondSpec.number (bp_ph b) 1 0 /\ BondSpec.number (bp_ph b) 2 1 /\ BondSpec.number (bp_ph b) 3 2 /\
  kinds (map (bp_sym b) (seq 0 (natoms b))) [chars "C"; chars "Na"] /\
  (exists r, bond_length_atoms 3 b 2 1 = Ok r /\ pd_dij r = Some 1) /\ (exists d, bond_angle 3 b 1 2 3 = Ok (Some 90, d)) /\ forall n, ~ BondSpec.number (bp_ph b) 4 n.
Proof.
  destruct BondFinal.sample3 as (b & N & FR & GC & _ & _ & _ & _ & N1 & N2 & N3 & _ & _ & (r & R & R1) & (d & D)). change (natoms b = 3%nat) in N.
  exists (renamed b). split. { split. intros k _. apply two_ok. change (natoms (renamed b)) with (natoms b). rewrite N. lia. }
  split; [exact FR|]. split; [exact GC|]. do 3 (split; [assumption|]). split.
  - change (natoms (renamed b)) with (natoms b). rewrite N. cbn [bp_sym renamed map seq two_kinds].
    apply (kinds_new [chars "C"; chars "C"] [chars "C"]). apply (kinds_old [chars "C"] [chars "C"]). apply (kinds_new [] []). constructor. intros []. left; auto. intros [H|[]]; discriminate H.
  - split. exists r; split; [exact R|exact R1]. split. exists d. exact D. intros n H. destruct (number_at _ _ _ H). change (natoms (renamed b)) with (natoms b) in *. lia.
Qed.
Lemma known_words : BondSpec.known (chars "c") /\ BondSpec.known (chars "all") /\ ~ BondSpec.known (chars "Xx").
Proof. split. destruct BondFinal.carbon as (e & M & _). right. eauto. split. apply BondEx.known_all. apply BondFinal.unknown_word. Qed.
Lemma small_ints : PyModel.c_int 1 = true /\ PyModel.c_int 4 = true. Proof. split; reflexivity. Qed.

(** index 0 is the last kind, an index above is ignored *)
Lemma index_refuted : exists b, ordinary b /\ kinds (map (bp_sym b) (seq 0 (natoms b))) [chars "C"; chars "Na"] /\
  (forall f a lo hi, blen f (Some b) [AInt 0; a; lo; hi] = blen f (Some b) [AText (chars "NA"); a; lo; hi]) /\
  (forall f a lo hi, blen f (Some b) [AInt 3; a; lo; hi] = ([], BDone)).
Proof.
  destruct sample as (b & O & _ & _ & _ & _ & _ & K & _). exists b. split; auto. split; auto. split.
  - intros f a lo hi. apply (named_back f b [chars "C"; chars "Na"] 0 (chars "Na") a lo hi K). reflexivity.
  - intros f a lo hi. apply (named_out f b [chars "C"; chars "Na"] 3 a lo hi K). reflexivity.
Qed.
Lemma ends_properly fuel c args a1 a2 a3 p x : p = blen fuel c args \/ p = bang fuel c a1 a2 a3 -> snd p = BRaised x ->
  fst p = [] /\ (x = BEng BindModel.XValue /\ c <> None \/ x = BEng BindModel.XUnassigned /\ c = None \/ x = BType \/ x = BOverflow).
Proof. intros [-> | ->]. apply blen_end. apply bang_end. Qed.
Lemma no_args fuel : snd (blen fuel None []) = BRaised BType. Proof. reflexivity. Qed.
Lemma three_args : length [AInt 1; AInt 2; AInt 3] <> 2%nat /\ length [AInt 1; AInt 2; AInt 3] <> 4%nat. Proof. split; discriminate. Qed.
Lemma other_args : no_int (AReal 1) BType /\ no_int (AInt 2147483648) BOverflow. Proof. split; cbn. auto. split; auto. lia. Qed.
Lemma one_real : as_real (AReal 1) = inr 1. Proof. reflexivity. Qed.
