(** Properties of output redirection (C67). *)
From Coq Require Import Ascii String.
From Coq Require Import List ZArith Bool.
From Verif Require Import Base ParserModel RedirModel RedirSpec RedirProof RedirEx.
Import ListNotations.
Local Open Scope Z_scope.

(** one thread: every text of the engine, those of refine_step included, arrives at the
    file chosen last, in order, once, and nothing is left behind *)
Theorem C67_engine : forall p, exists s, run (events p) init = Ok s /\ held s = [] /\
  forall d, arrived engine_only d (log s) = wanted engine_text d None (events p).
Proof. exact one_thread. Qed.
Print Assumptions C67_engine.

(** without restore the text of the class is in the same file, in order with it *)
Theorem C67_together : forall p, ~ In CRestore p ->
  exists s, run (events p) init = Ok s /\ forall f, arrived everyone (DFile f) (log s) = wanted any_text (DFile f) None (events p).
Proof. exact together. Qed.
Print Assumptions C67_together.

Example C67_together_example : ~ In CRestore ex_calls /\ wanted any_text (DFile 4) None (events ex_calls) = chars "bcde" /\
  wanted any_text (DFile 7) None (events ex_calls) = chars "fg" /\ wanted engine_text DCout None (events ex_calls) = chars "a" /\
  wanted any_text (DFile 5) None (events ex_calls) = [].
Proof. exact ex_calls_ok. Qed.

(** where the text of the class goes in any run: restore does not bring it back *)
Theorem C67_python : forall l s, run l init = Ok s -> forall d, arrived python_only d (log s) = python_wanted d DSys l.
Proof. exact python_side. Qed.
Print Assumptions C67_python.

Theorem C67_restore_refuted : exists p f t s, run (events p) init = Ok s /\ p = [CRedirect f true; CRestore; CPython t] /\ t <> [] /\
  arrived everyone (DFile f) (log s) = t /\ wanted any_text (DFile f) None (events p) = [].
Proof. exact restore_refuted. Qed.
Print Assumptions C67_restore_refuted.

(** the module holds one reference to the file in use, none to others *)
Theorem C67_references : forall l s, run l init = Ok s ->
  (forall f, refs s f = 1 <-> chosen l = Some f) /\ forall f, chosen l <> Some f -> refs s f = 0.
Proof. exact references. Qed.
Print Assumptions C67_references.

Example C67_references_example : exists s, run ex_mixed init = Ok s /\ chosen (removelast ex_mixed) = None /\
  chosen [ERedirect 3 true; ERedirect 4 true; ERedirect 5 false] = Some 4%nat.
Proof. exact ex_refs. Qed.

(** several threads, but one refine_step at a time and no change of file during it *)
Theorem C67_one_step : forall l, possible [] l -> calm false l -> under_way [] l = [] ->
  exists s, run l init = Ok s /\ forall d, arrived engine_only d (log s) = wanted engine_text d None l.
Proof. exact one_step. Qed.
Print Assumptions C67_one_step.

Example C67_one_step_example : possible [] ex_mixed /\ calm false ex_mixed /\ under_way [] ex_mixed = [] /\ wanted engine_text (DFile 4) None ex_mixed = chars "abd".
Proof. exact ex_mixed_ok. Qed.

(** output never redirected: any number of steps at a time *)
Theorem C67_unredirected : forall l, Forall (fun e => moves e = false) l -> possible [] l ->
  exists s, run l init = Ok s /\ arrived engine_only DCout (log s) = wanted engine_text DCout None l /\ forall f, arrived everyone (DFile f) (log s) = [].
Proof. exact unredirected. Qed.
Print Assumptions C67_unredirected.

Example C67_unredirected_example : Forall (fun e => moves e = false) ex_many /\ possible [] ex_many.
Proof. exact ex_many_ok. Qed.

(** two steps at a time with output redirected: the first to end makes the other call
    the interpreter without its lock *)
Theorem C67_two_steps : forall l s f a b t, run l init = Ok s -> chosen l = Some f -> a <> b ->
  run (l ++ [EBegin a; EBegin b; EEnd a; EStep b t]) init = UB /\ run (l ++ [EBegin a; EBegin b; EEnd b; EStep a t]) init = UB.
Proof. exact two_steps. Qed.
Print Assumptions C67_two_steps.

Example C67_two_steps_example : run [ERedirect 4 true] init = Ok (redirect 4 true init) /\ chosen [ERedirect 4 true] = Some 4%nat.
Proof. exact ex_two. Qed.

Theorem C67_two_steps_refuted : exists l, possible [] l /\ run l init = UB.
Proof. exact two_refuted. Qed.
Print Assumptions C67_two_steps_refuted.

(** the first redirect during a step has the same effect *)
Theorem C67_start_refuted : exists l, possible [] l /\ length (filter (fun e => match e with EBegin _ => true | _ => false end) l) = 1%nat /\ run l init = UB.
Proof. exact start_refuted. Qed.
Print Assumptions C67_start_refuted.

(** restore during a step: its text arrives nowhere *)
Theorem C67_lost_refuted : exists l s, possible [] l /\ under_way [] l = [] /\ run l init = Ok s /\
  wanted engine_text (DFile 1) None l = chars "t" /\ forall d, arrived everyone d (log s) = [].
Proof. exact lost_refuted. Qed.
Print Assumptions C67_lost_refuted.
