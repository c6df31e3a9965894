(** Cases for C67. *)
From Coq Require Import Ascii String.
From Coq Require Import List ZArith Bool Lia.
From Verif Require Import Base ParserModel RedirModel RedirSpec RedirProof.
Import ListNotations.

Definition ex_calls : list call :=
  [CEngine (chars "a"); CRedirect 4 true; CPython (chars "b"); CRefineStep [chars "c"; chars "d"]; CRedirect 5 false; CEngine (chars "e");
   CRedirect 7 true; CRefineStep [chars "f"]; CPython (chars "g")].
Lemma ex_calls_ok : ~ In CRestore ex_calls /\ wanted any_text (DFile 4) None (events ex_calls) = chars "bcde" /\
  wanted any_text (DFile 7) None (events ex_calls) = chars "fg" /\ wanted engine_text DCout None (events ex_calls) = chars "a" /\
  wanted any_text (DFile 5) None (events ex_calls) = [].
Proof. split; [cbn; intuition discriminate|]. repeat split. Qed.

(** two threads, one step at a time *)
Definition ex_mixed : list event :=
  [ERedirect 4 true; EBegin 1; EStep 1 (chars "a"); EEngine (chars "b"); EPython (chars "c"); EStep 1 (chars "d"); EEnd 1; ERestore; EBegin 1; EStep 1 (chars "e"); EEnd 1].
Lemma ex_mixed_ok : possible [] ex_mixed /\ calm false ex_mixed /\ under_way [] ex_mixed = [] /\ wanted engine_text (DFile 4) None ex_mixed = chars "abd".
Proof. repeat split; cbn; intuition lia. Qed.
Definition ex_many : list event := [EBegin 1; EBegin 2; EStep 1 (chars "a"); EStep 2 (chars "b"); EEnd 1; EStep 2 (chars "c"); EEnd 2].
Lemma ex_many_ok : Forall (fun e => moves e = false) ex_many /\ possible [] ex_many.
Proof. split; [repeat constructor|cbn; intuition lia]. Qed.
Lemma ex_two : run [ERedirect 4 true] init = Ok (redirect 4 true init) /\ chosen [ERedirect 4 true] = Some 4%nat.
Proof. split; reflexivity. Qed.
Lemma ex_refs : exists s, run ex_mixed init = Ok s /\ chosen (removelast ex_mixed) = None /\ chosen [ERedirect 3 true; ERedirect 4 true; ERedirect 5 false] = Some 4%nat.
Proof. eexists. split; [reflexivity|]. split; reflexivity. Qed.

Lemma restore_refuted : exists p f t s, run (events p) init = Ok s /\ p = [CRedirect f true; CRestore; CPython t] /\ t <> [] /\
  arrived everyone (DFile f) (log s) = t /\ wanted any_text (DFile f) None (events p) = [].
Proof. exists [CRedirect 1 true; CRestore; CPython (chars "t")], 1%nat, (chars "t"). eexists. repeat split. discriminate. Qed.
Lemma lost_refuted : exists l s, possible [] l /\ under_way [] l = [] /\ run l init = Ok s /\
  wanted engine_text (DFile 1) None l = chars "t" /\ forall d, arrived everyone d (log s) = [].
Proof. exists [ERedirect 1 true; EBegin 0; EStep 0 (chars "t"); ERestore; EEnd 0]. eexists. repeat split; cbn; intuition. Qed.
Lemma two_refuted : exists l, possible [] l /\ run l init = UB.
Proof. exists [ERedirect 1 true; EBegin 1; EBegin 2; EEnd 1; EStep 2 (chars "t")]. split; [cbn; intuition lia|reflexivity]. Qed.
Lemma start_refuted : exists l, possible [] l /\ length (filter (fun e => match e with EBegin _ => true | _ => false end) l) = 1%nat /\ run l init = UB.
Proof. exists [EBegin 1; ERedirect 1 true; EStep 1 (chars "t")]. split; [cbn; intuition lia|split; reflexivity]. Qed.
