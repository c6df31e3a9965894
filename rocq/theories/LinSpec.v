(** Least squares with a model that is linear in the free parameters. *)
From Coq Require Import List Arith Reals Bool.
From Verif Require Import Base RSum LsModel LsSpec.
Import ListNotations.
Local Open Scope R_scope.

(** parameters that differ from those of the object in the free ones only *)
Definition allowed (o : fobj) (p : nat -> R) : Prop := forall l, ~ free o l -> p l = f_p o l.

(** the same data and derivatives, calculated values changed in proportion to [x] *)
Definition moved (o : fobj) (x : nat -> R) (d d' : dsval) : Prop :=
  d_lo d' = d_lo d /\ d_hi d' = d_hi d /\
  forall i, In i (points d) -> d_obs d' i = d_obs d i /\ d_w d' i = d_w d i /\
    (forall l, free o l -> dpar d' i l = dpar d i l) /\
    d_pdf d' i = d_pdf d i + along (f_ia o) (f_ma o) d i x.

(** the model can be evaluated for all values of the free parameters and is linear in them *)
Definition linear (o : fobj) (ds0 : list dsval) : Prop :=
  f_theory o (f_p o) = Ok ds0 /\
  forall p, allowed o p -> exists ds, f_theory o p = Ok ds /\ Forall2 (moved o (fun l => p l - f_p o l)) ds0 ds.

(** no values of the free parameters give a smaller sum of squares than [c], which is
    that of [q] *)
Definition least (o : fobj) (q : nat -> R) (c : R) : Prop :=
  allowed o q /\ (exists dq, f_theory o q = Ok dq /\ chisq_of dq = c) /\
  forall p ds, allowed o p -> f_theory o p = Ok ds -> c <= chisq_of ds.

(** squared distance in units of the deviations that the parameters would have one by one *)
Definition spread (o : fobj) (ds0 : list dsval) (p q : nat -> R) : R :=
  sum_free (f_ia o) (f_ma o) (fun l => curvature ds0 l l * ((p l - q l) * (p l - q l))).

(** weighted sum of the squared changes of the calculated values *)
Definition change2 (o : fobj) (ds0 : list dsval) (x : nat -> R) : R :=
  lsum (fun d => lsum (fun i => d_w d i * (along (f_ia o) (f_ma o) d i x * along (f_ia o) (f_ma o) d i x)) (points d)) ds0.
(** the free parameters are correlated at most so much: 1 for independent ones *)
Definition conditioned (o : fobj) (ds0 : list dsval) (k : R) : Prop :=
  0 <= k /\ forall x, sum_free (f_ia o) (f_ma o) (fun l => curvature ds0 l l * (x l * x l)) <=
    k * change2 o ds0 x.

(** 10^-3 * 10^-4 * ... with n factors *)
Fixpoint shrink (n : nat) : R := match n with O => 1 | S m => shrink m * / 10 ^ (m + 3) end.

(** the calculated values are the observed ones wherever they count *)
Definition exact_at (o : fobj) (q : nat -> R) : Prop :=
  exists dq, f_theory o q = Ok dq /\ forall d i, In d dq -> In i (points d) -> d_w d i <> 0 -> d_pdf d i = d_obs d i.
