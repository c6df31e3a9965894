(** Specification of the least squares engine: sums and stopping rule, written
    without the loops of the code. *)
From Coq Require Import List Arith Reals Bool.
From Verif Require Import Base RSum GaussModel GaussSpec LsModel.
Import ListNotations.
Local Open Scope R_scope.

(** * stopping rule *)
Section Stop.
  Context {St : Type}.
  Variable iterate : St -> St * outcome bool.

  (** state after k iterations and outcome of the k-th comparison (from 1) *)
  Fixpoint after (s : St) (k : nat) : St :=
    match k with O => s | S n => fst (iterate (after s n)) end.
  Definition flag (s : St) (k : nat) : bool :=
    match k with O => false | S n => match snd (iterate (after s n)) with Ok b => b | _ => false end end.

  (** the condition for ending after n iterations: 100 were made, or the last
      three stagnated (the first iteration never counts) *)
  Definition ends (s : St) (n : nat) : Prop :=
    n = 100%nat \/ ((4 <= n)%nat /\ flag s n = true /\ flag s (n - 1) = true /\ flag s (n - 2) = true).
End Stop.

(** * sums over the data *)
(** residual, and derivative with respect to parameter l (from 1), at point i *)
Definition resid (d : dsval) (i : nat) : R := d_obs d i - d_pdf d i.
Definition dpar (d : dsval) (i l : nat) : R := d_fb d i (l - 1)%nat.

Definition ds_chisq (d : dsval) : R := lsum (fun i => d_w d i * (resid d i * resid d i)) (points d).
Definition chisq_of (ds : list dsval) : R := lsum ds_chisq ds.
Definition curvature (ds : list dsval) (l m : nat) : R :=
  lsum (fun d => lsum (fun i => d_w d i * dpar d i l * dpar d i m) (points d)) ds.
Definition gradient (ds : list dsval) (l : nat) : R :=
  lsum (fun d => lsum (fun i => d_w d i * resid d i * dpar d i l) (points d)) ds.

(** sums over the free parameters *)
Definition sum_free (ia : nat -> bool) (ma : nat) (f : nat -> R) : R :=
  S1 ma (fun l => if ia l then f l else 0).

(** cumulative chi-squared: entry k is the sum over the first k+1 points *)
Definition cum_chisq (d : dsval) : list R :=
  map (fun k => lsum (fun i => d_w d i * (resid d i * resid d i)) (firstn (S k) (points d))) (seq 0 (length (points d))).

(** free parameter l of an object with [ma] parameters *)
Definition free (o : fobj) (l : nat) : Prop := (1 <= l <= f_ma o)%nat /\ f_ia o l = true.

(** * refinements *)
(** the parts of the object that a refinement does not touch *)
Definition same_session (o o' : fobj) : Prop :=
  f_ma o' = f_ma o /\ f_ia o' = f_ia o /\ f_theory o' = f_theory o /\ f_setup o' = f_setup o.

(** parameters that a refinement may not move are unchanged *)
Definition fixed_kept (o o' : fobj) : Prop := forall l, ~ free o l -> f_p o' l = f_p o l.

(** the equations solved in a step with damping [lam] *)
Definition damped (ia : nat -> bool) (ma : nat) (ds : list dsval) (lam : R) (x y : nat -> R) : Prop :=
  forall l, (1 <= l <= ma)%nat -> ia l = true ->
    sum_free ia ma (fun m => curvature ds l m * x m) + lam * curvature ds l l * x l = y l.

(** these equations do not determine the step *)
Definition damped_singular (ia : nat -> bool) (ma : nat) (ds : list dsval) (lam : R) : Prop :=
  exists x, (exists l, (1 <= l <= ma)%nat /\ ia l = true /\ x l <> 0) /\ damped ia ma ds lam x (fun _ => 0).

(** [V] is the inverse of the curvature over the free parameters and zero in the
    rows and columns of fixed ones *)
Definition cov_spec (o : fobj) (ds : list dsval) (V : fmat) : Prop :=
  (forall l n, (1 <= l <= f_ma o)%nat -> (1 <= n <= f_ma o)%nat -> ~ (f_ia o l = true /\ f_ia o n = true) -> V l n = 0) /\
  (forall l n, free o l -> free o n ->
     sum_free (f_ia o) (f_ma o) (fun m => V l m * curvature ds m n) = identity l n /\
     sum_free (f_ia o) (f_ma o) (fun m => curvature ds l m * V m n) = identity l n).

(** two consecutive observations of a refinement *)
Definition improves (o o' : fobj) : Prop :=
  (f_p o' = f_p o /\ f_chisq o' = f_chisq o) \/ f_chisq o' < f_chisq o.

(** the reported chi-squared is that of the reported parameters *)
Definition chisq_is_own (o : fobj) : Prop :=
  exists ds, f_theory o (f_p o) = Ok ds /\ f_chisq o = chisq_of ds.

(** what a finished refinement reports *)
Definition final_report (o0 : fobj) (ds0 : list dsval) (o : fobj) : Prop :=
  exists ds, f_theory o0 (f_p o) = Ok ds /\ f_chisq o = chisq_of ds /\
    (f_p o = f_p o0 /\ chisq_of ds = chisq_of ds0 \/ chisq_of ds < chisq_of ds0) /\
    cov_spec o0 ds (f_covar o).

(** the next refine_step starts a new refinement *)
Definition fresh (running : bool) (c : ctl) : Prop := running = false \/ c_iter c = 0%nat.

(** state after n calls if all of them returned 0 *)
Fixpoint ls_steps (toler : R) (n : nat) (running : bool) (c : ctl) (x : lst) : option (bool * ctl * lst) :=
  match n with
  | O => Some (running, c, x)
  | S k => match ls_steps toler k running c x with
           | Some (running, c, x) =>
               match ls_step toler running c x with
               | (running', c', x', Ok false) => Some (running', c', x')
               | _ => None
               end
           | None => None
           end
  end.

(** change of the calculated value at point i in direction x, to first order *)
Definition along (ia : nat -> bool) (ma : nat) (d : dsval) (i : nat) (x : nat -> R) : R :=
  sum_free ia ma (fun l => dpar d i l * x l).

(** weights are not negative *)
Definition weights_ok (ds : list dsval) : Prop := forall d i, In d ds -> In i (points d) -> 0 <= d_w d i.

(** parameter l has no influence on any weighted point *)
Definition no_influence (ds : list dsval) (l : nat) : Prop :=
  forall d i, In d ds -> In i (points d) -> d_w d i <> 0 -> dpar d i l = 0.

(** what an observer sees of a finished or interrupted refinement *)
Definition same_view (o o' : fobj) : Prop :=
  same_session o o' /\ f_p o' = f_p o /\ f_chisq o' = f_chisq o /\ f_cum o' = f_cum o.

(** same parameters, flags and model; anything may be left over from earlier
    refinements *)
Definition same_start (o o' : fobj) : Prop := same_session o o' /\ f_p o' = f_p o /\ f_cum o' = f_cum o.

(** the model can be evaluated everywhere, weights are not negative and every
    free parameter influences some weighted point *)
Definition regular (o : fobj) : Prop :=
  forall p, exists ds, f_theory o p = Ok ds /\ weights_ok ds /\ forall l, free o l -> ~ no_influence ds l.

(** some combination of the free parameters leaves the calculated values at all
    weighted points unchanged *)
Definition dependent (o : fobj) (ds : list dsval) : Prop :=
  exists x, (exists l, free o l /\ x l <> 0) /\
    forall d i, In d ds -> In i (points d) -> d_w d i <> 0 -> sum_free (f_ia o) (f_ma o) (fun l => dpar d i l * x l) = 0.

(** set-up and model evaluation are free of undefined behaviour *)
Definition never_ub (o : fobj) : Prop := f_setup o <> UB /\ forall p, f_theory o p <> UB.

(** object concerned by a call *)
Definition wop_obj (op : wop) : nat := match op with WEdit i _ => i | WStep i => i | WRefine i => i end.

(** only complete refinements and edits *)
Definition no_step (op : wop) : Prop := match op with WStep _ => False | _ => True end.

(** edits and refinements in turn; outcomes of the refinements *)
Fixpoint attempts (toler : R) (running : bool) (c : ctl) (x : lst) (gs : list (sess -> sess)) : list (outcome unit) :=
  match gs with
  | [] => []
  | g :: gs =>
      let '(running, c, x, r) := ls_refine toler 101 running c (fst x, edit g (snd x)) in
      r :: attempts toler running c x gs
  end.

(** an edit that adds or removes no parameter *)
Definition keeps_number (g : sess -> sess) : Prop := forall e, se_ma (g e) = se_ma e.

(** the calculated values and their derivatives along the straight line p + s*dir *)
Definition smooth_along (ia : nat -> bool) (ma : nat) (dir : nat -> R) (dss : R -> list dsval) : Prop :=
  exists mk : list (R -> dsval),
    (forall s, dss s = map (fun d => d s) mk) /\
    forall d, In d mk ->
      (forall s, d_lo (d s) = d_lo (d 0) /\ d_hi (d s) = d_hi (d 0) /\ d_obs (d s) = d_obs (d 0) /\ d_w (d s) = d_w (d 0)) /\
      (forall i, In i (points (d 0)) ->
        derivable_pt_lim (fun s => d_pdf (d s) i) 0 (sum_free ia ma (fun l => dpar (d 0) i l * dir l))).
