(** Specification: what a user reads between two calls of refine_step. *)
From Coq Require Import List Arith ZArith Reals Bool.
From Verif Require Import Base ParamModel ParserModel ParserSpec ConModel ConSpec PdfModel LayoutModel LsModel LsSpec TheoryModel TheorySpec RunModel RunSpec.
Import ListNotations.
Local Open Scope R_scope.

(** state after n calls of refine_step if all of them returned 0 *)
Fixpoint world_steps (addr : rvar -> nat) (N : numops R) (builtins : list (builtin R)) (fuel : nat) (ph : list cphase) (sets : list tset) (npar : nat)
    (toler : R) (n : nat) (running : bool) (c : ctl) (x : @wst world) : option (bool * ctl * @wst world) :=
  match n with
  | O => Some (running, c, x)
  | S k => match world_steps addr N builtins fuel ph sets npar toler k running c x with
           | Some (running, c, x) =>
               match world_step addr N builtins fuel ph sets npar toler running c x with
               | (running', c', x', Ok false) => Some (running', c', x')
               | _ => None
               end
           | None => None
           end
  end.

(** the variables and PDFs in memory are those of the parameter values q, whatever
    values the parameters have now *)
Definition shows (addr : rvar -> nat) (N : numops R) (builtins : list (builtin R)) (fuel : nat) (ph : list cphase) (sets : list tset) (cs : list (nat * con))
    (st0 : cstate R) (w : world) (q : nat -> R) : Prop :=
  settled addr N builtins fuel ph sets cs st0 (with_pars (w_st w) q) (w_pdf w) q.

(** getpar gives the values p for the parameters in their order *)
Definition getpar_is (st : cstate R) (p : nat -> R) : Prop :=
  forall l, (l < length (pval (ctab st)))%nat -> nth_error (pval (ctab st)) l = Some (p (S l)).

(** q is the trial of the step from o0 to o, a solution of the damped normal equations;
    it is taken if it is better, and otherwise the parameters stay *)
Definition trial_of (o0 o : fobj) (q : nat -> R) : Prop :=
  exists ds dsq lam, f_theory o (f_p o0) = Ok ds /\ f_theory o q = Ok dsq /\ (forall l, ~ free o l -> q l = f_p o0 l) /\
    0 < lam /\ damped (f_ia o) (f_ma o) ds lam (fun l => q l - f_p o0 l) (gradient ds) /\
    ((chisq_of dsq < chisq_of ds /\ f_p o = q /\ f_chisq o = chisq_of dsq) \/
     (chisq_of ds <= chisq_of dsq /\ f_p o = f_p o0 /\ f_chisq o = chisq_of ds)).
