(** C93: the version of the program. *)
From Coq Require Import String List Bool.
From Verif Require Import Base VersModel VersSpec VersProof.
Import ListNotations.
Local Open Scope list_scope.

(** As long as no version was defined, however often it was asked for: "1.0?". *)
Theorem C93_before : forall h, never_defined h -> snd (version (fst (calls None h)) None) = Ok "1.0?"%string.
Proof. exact before_definition. Qed.
Print Assumptions C93_before.

Example C93_before_case : never_defined [None; None].
Proof. intros c [<-|[<-|[]]]; reflexivity. Qed.

(** After any history the version is the first one defined in it; it may be defined
    again as the same, any other is refused by an exception and changes nothing. *)
Theorem C93_after : forall h w, first_defined h w -> let st := fst (calls None h) in
  snd (version st None) = Ok w /\ snd (version st (Some w)) = Ok w /\ (forall x, x <> w -> version st (Some x) = (st, Err ErrPlain)).
Proof. exact after_definition. Qed.
Print Assumptions C93_after.

Example C93_after_case : first_defined [None; Some "1.5.2"; Some "2"; None]%string "1.5.2".
Proof. exists [None], [Some "2"; None]%string. split. reflexivity. intros c [<-|[]]. reflexivity. Qed.

(** All calls of a history that return give one value, but for "1.0?" in front of the
    first definition. *)
Theorem C93_one_value : forall h w, first_defined h w -> forall i r, nth_error (snd (calls None h)) i = Some (Ok r) ->
  r = w \/ (r = "1.0?"%string /\ never_defined (firstn (S i) h)).
Proof. exact one_value. Qed.
Print Assumptions C93_one_value.

Example C93_one_value_case : snd (calls None [None; Some "1.5.2"; Some "2"; None]%string) = [Ok "1.0?"; Ok "1.5.2"; Err ErrPlain; Ok "1.5.2"]%string.
Proof. reflexivity. Qed.

(** Loading the module defines the version of the Python package; loading it again does
    nothing with the same version, and with another an exception of C++ leaves it. *)
Theorem C93_load : forall p s, p = VText s -> transfer_version None p = (Some s, Ok false).
Proof. exact transfer_first. Qed.
Print Assumptions C93_load.

Example C93_load_case : VText "1.5.2" = VText "1.5.2".
Proof. reflexivity. Qed.

Theorem C93_load_again : forall h w, first_defined h w -> let st := fst (calls None h) in
  transfer_version st (VText w) = (st, Ok false) /\ (forall x, x <> w -> transfer_version st (VText x) = (st, Err ErrPlain)).
Proof. exact transfer_again. Qed.
Print Assumptions C93_load_again.

Example C93_load_again_case : first_defined [Some "1.5.2"]%string "1.5.2".
Proof. exists [], []. split. reflexivity. intros c []. Qed.

(** Without a version to be found the state is as before and a Python exception is left
    set, though the module is returned. *)
Theorem C93_load_none : forall st p, (forall s, p <> VText s) -> transfer_version st p = (st, Ok true).
Proof. exact transfer_none. Qed.
Print Assumptions C93_load_none.

Example C93_load_none_case : forall s, NoAttribute <> VText s.
Proof. discriminate. Qed.

(** Refuted: a transfer that returns leaves no Python exception set. *)
Theorem C93_load_refuted : exists st p, transfer_version st p = (None, Ok true).
Proof. exact error_left. Qed.
Print Assumptions C93_load_refuted.
