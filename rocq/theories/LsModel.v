(** Model of the least squares engine: refine_step control (fit.cc:40-146),
    mrqcof and mrqmin (pdflsmin.cc:36-299), getcrw and friends
    (pdf.cc:1124-1168).
    Doubles are real numbers; arrays passed as double* / double** are functions
    of 1-based indices with their allocated sizes kept beside them where an
    overrun is possible.  Screen output is left out. *)
From Coq Require Import List Arith Reals Bool.
From Verif Require Import Base GaussModel.
Import ListNotations.
Local Open Scope R_scope.

(** * control of the refinement *)
Section Control.
  (** [St] is everything that the three phases of a refinement work on *)
  Context {St : Type}.
  Variable setup : St -> St * outcome unit.
  Variable iterate : St -> St * outcome bool.
  Variable finish : St -> St * outcome unit.

  (** fit.iter and fit.stagnating, pdffit.h:151-153 *)
  Record ctl : Type := mkC { c_iter : nat; c_stag : nat }.

  (** models fit.cc:93, the test deciding between another iteration and the end;
      NSTAG = MINITER = 3, MAXITER = 100 (fit.cc:57) *)
  Definition need_more (c : ctl) : bool :=
    ((c_iter c <? 3) || ((c_stag c <? 3) && (c_iter c <? 100)))%nat%bool.

  (** models fit.cc:99-104; [stag] is the comparison
      (ochisq - chisq) <= toler*ochisq *)
  Definition bump (c : ctl) (stag : bool) : ctl :=
    mkC (S (c_iter c)) (if (negb (c_iter c =? 0)%nat && stag)%bool then S (c_stag c) else 0%nat).

  (** models fit.cc:54-146 refine_step.  [running] is the function-level static
      fit_running, shared by all objects.  The state is returned also when a
      phase throws, as left behind by it. *)
  Definition refine_step (running : bool) (c : ctl) (s : St) : bool * ctl * St * outcome bool :=
    let running := (running && negb (c_iter c =? 0)%nat)%bool in
    let '(c, s, r) :=
      if running then (c, s, Ok tt)
      else let (s, r) := setup s in (mkC 0 0, s, r) in
    match r with
    | Ok _ =>
        if need_more c then
          let (s, r) := iterate s in
          match r with
          | Ok stag => (true, bump c stag, s, Ok false)
          | Err e => (true, c, s, Err e)
          | UB => (true, c, s, UB)
          | NoFuel => (true, c, s, NoFuel)
          end
        else
          let (s, r) := finish s in
          match r with
          | Ok _ => (false, c, s, Ok true)
          | Err e => (true, c, s, Err e)
          | UB => (true, c, s, UB)
          | NoFuel => (true, c, s, NoFuel)
          end
    | Err e => (true, c, s, Err e)
    | UB => (true, c, s, UB)
    | NoFuel => (true, c, s, NoFuel)
    end.

  (** models fit.cc:40-48 refine and pdffit.py:329-334, the loop over
      refine_step; the fuel bounds the number of calls *)
  Fixpoint refine (fuel : nat) (running : bool) (c : ctl) (s : St) : bool * ctl * St * outcome unit :=
    match fuel with
    | O => (running, c, s, NoFuel)
    | S n =>
        let '(running, c, s, r) := refine_step running c s in
        match r with
        | Ok true => (running, c, s, Ok tt)
        | Ok false => refine n running c s
        | Err e => (running, c, s, Err e)
        | UB => (running, c, s, UB)
        | NoFuel => (running, c, s, NoFuel)
        end
    end.
End Control.

(** * normal equations *)

(** one data set as seen by mrqcof: nfmin, nfmax, obs, wic, pdftot and fit_b
    (column index 0-based as in fit_b) *)
Record dsval : Type := mkDs {
  d_lo : nat; d_hi : nat;
  d_obs : nat -> R; d_w : nat -> R; d_pdf : nat -> R; d_fb : nat -> nat -> R }.

(** i = nfmin..nfmax *)
Definition points (d : dsval) : list nat := seq (d_lo d) (S (d_hi d) - d_lo d).

(** x[i] = v *)
Definition rset (f : nat -> R) (i : nat) (v : R) : nat -> R :=
  fun i' => if (i' =? i)%nat then v else f i'.

(** models pdflsmin.cc:100-101 and 181-182, count of the free parameters *)
Definition free_count (ia : nat -> bool) (ma : nat) : nat :=
  loop (up ma) (fun j c => if ia j then S c else c) 0%nat.

(** models pdflsmin.cc:183-186 *)
Definition mrq_zero (mfit : nat) (al : fmat) (be : nat -> R) : fmat * (nat -> R) :=
  loop (up mfit) (fun j s =>
    let (al, be) := s : fmat * (nat -> R) in
    (loop (up j) (fun k al => mset al j k 0) al, rset be j 0)) (al, be).

(** models pdflsmin.cc:283-288, inner loop over m *)
Definition acc_row (ia : nat -> bool) (j l : nat) (wt : R) (dyda : nat -> R) (al : fmat) : fmat :=
  snd (loop (up l) (fun m s =>
    if ia m then let (k, al) := s : nat * fmat in
      (S k, mset al j (S k) (al j (S k) + wt * dyda m)) else s) (0%nat, al)).

(** models pdflsmin.cc:280-288, contribution of one point *)
Definition acc_point (ma : nat) (ia : nat -> bool) (w dy : R) (dyda : nat -> R)
    (s : fmat * (nat -> R)) : fmat * (nat -> R) :=
  snd (loop (up ma) (fun l s =>
    if ia l then
      let '(j, (al, be)) := s : nat * (fmat * (nat -> R)) in
      let wt := dyda l * w in
      let j := S j in
      (j, (acc_row ia j l wt dyda al, rset be j (be j + dy * wt)))
    else s) (0%nat, s)).

(** vector::back() or 0.0 when empty *)
Definition back0 (l : list R) : R := last l 0.

(** models pdflsmin.cc:264-293 for one data set; returns its cumchisq too *)
Definition acc_ds (ma : nat) (ia : nat -> bool) (d : dsval) (s : fmat * (nat -> R))
    : (fmat * (nat -> R)) * list R :=
  loop (points d) (fun i s =>
    let '(ab, cum) := s : (fmat * (nat -> R)) * list R in
    let sig2i := d_w d i in
    let dy := d_obs d i - d_pdf d i in
    let dyda := fun j => d_fb d i (j - 1)%nat in
    (acc_point ma ia sig2i dy dyda ab, cum ++ [back0 cum + dy * dy * sig2i])) (s, []).

(** models pdflsmin.cc:261-294: all data sets, chisq and the cumchisq of each *)
Definition acc_all (ma : nat) (ia : nat -> bool) (ds : list dsval) (s : fmat * (nat -> R))
    : (fmat * (nat -> R)) * R * list (list R) :=
  fold_left (fun acc d =>
    let '(ab, chisq, cums) := acc in
    let (ab, cum) := acc_ds ma ia d ab in
    (ab, chisq + back0 cum, cums ++ [cum])) ds (s, 0, []).

(** models pdflsmin.cc:295-296 *)
Definition sym_fill (mfit : nat) (al : fmat) : fmat :=
  loop (seq 2 (mfit - 1)) (fun j al => loop (up (j - 1)) (fun k al => mset al k j (al j k)) al) al.

(** the part of the program state used by mrqmin that belongs to one PdfFit:
    fit.p, fit.ip, fit.covar, fit.alpha (with their dimension), fit.chisq,
    fit.ochisq, fit.alambda, the cumchisq of its data sets, and the session
    content represented by what fit_theory(true, false) computes from the
    parameters and by whether fit_setup succeeds *)
Record fobj : Type := mkF {
  f_ma : nat; f_p : nat -> R; f_ia : nat -> bool;
  f_theory : (nat -> R) -> outcome (list dsval);
  f_setup : outcome unit;
  f_covar : fmat; f_alpha : fmat; f_dim : nat;
  f_chisq : R; f_ochisq : R; f_alambda : R;
  f_cum : list (list R) }.

Definition set_p (o : fobj) x := mkF (f_ma o) x (f_ia o) (f_theory o) (f_setup o) (f_covar o) (f_alpha o) (f_dim o) (f_chisq o) (f_ochisq o) (f_alambda o) (f_cum o).
Definition set_covar (o : fobj) x := mkF (f_ma o) (f_p o) (f_ia o) (f_theory o) (f_setup o) x (f_alpha o) (f_dim o) (f_chisq o) (f_ochisq o) (f_alambda o) (f_cum o).
Definition set_alpha (o : fobj) x := mkF (f_ma o) (f_p o) (f_ia o) (f_theory o) (f_setup o) (f_covar o) x (f_dim o) (f_chisq o) (f_ochisq o) (f_alambda o) (f_cum o).
Definition set_dim (o : fobj) x := mkF (f_ma o) (f_p o) (f_ia o) (f_theory o) (f_setup o) (f_covar o) (f_alpha o) x (f_chisq o) (f_ochisq o) (f_alambda o) (f_cum o).
Definition set_chisq (o : fobj) x := mkF (f_ma o) (f_p o) (f_ia o) (f_theory o) (f_setup o) (f_covar o) (f_alpha o) (f_dim o) x (f_ochisq o) (f_alambda o) (f_cum o).
Definition set_ochisq (o : fobj) x := mkF (f_ma o) (f_p o) (f_ia o) (f_theory o) (f_setup o) (f_covar o) (f_alpha o) (f_dim o) (f_chisq o) x (f_alambda o) (f_cum o).
Definition set_lambda (o : fobj) x := mkF (f_ma o) (f_p o) (f_ia o) (f_theory o) (f_setup o) (f_covar o) (f_alpha o) (f_dim o) (f_chisq o) (f_ochisq o) x (f_cum o).
Definition set_cum (o : fobj) x := mkF (f_ma o) (f_p o) (f_ia o) (f_theory o) (f_setup o) (f_covar o) (f_alpha o) (f_dim o) (f_chisq o) (f_ochisq o) (f_alambda o) x.

(** models pdflsmin.cc:175-299 mrqcof with deriv = true (the only value passed by
    the Python bindings, misc.cc:387, 447).  [a] is the trial array, [al], [be]
    the arrays to fill.  They are returned as left behind also when fit_theory
    throws.  The numerical derivative branch (pdflsmin.cc:201-257) is not
    modelled. *)
Definition mrqcof (o : fobj) (a : nat -> R) (al : fmat) (be : nat -> R)
    : fobj * fmat * (nat -> R) * outcome R :=
  let mfit := free_count (f_ia o) (f_ma o) in
  let (al, be) := mrq_zero mfit al be in
  let o := set_p o a in
  match f_theory o a with
  | Ok ds =>
      let '((al, be), chisq, cums) := acc_all (f_ma o) (f_ia o) ds (al, be) in
      (set_cum o cums, sym_fill mfit al, be, Ok chisq)
  | Err e => (o, al, be, Err e)
  | UB => (o, al, be, UB)
  | NoFuel => (o, al, be, NoFuel)
  end.

(** the static locals of mrqmin, pdflsmin.cc:90-91: size of the arrays, mfit,
    ochisq, atry, beta, da and the number of leading entries of da that have
    been written.  oneda is written before it is read in every call. *)
Record statics : Type := mkS {
  s_ma : nat; s_mfit : nat; s_ochisq : R;
  s_atry : nat -> R; s_beta : nat -> R; s_da : nat -> R; s_dan : nat }.

(** models pdflsmin.cc:93-115.  When mrqcof throws here the new arrays stay
    uninitialised; this, like freed or never allocated arrays, is [None]. *)
Definition mrq_init (st : option statics) (o : fobj) : option statics * fobj * outcome unit :=
  if Rlt_dec (f_alambda o) 0 then
    let mfit := free_count (f_ia o) (f_ma o) in
    let a := f_p o in
    let o := set_lambda o (/ 1000) in
    let '(o, al, be, r) := mrqcof o a (f_alpha o) (fun _ => 0) in
    let o := set_alpha o al in
    match r with
    | Ok c => (Some (mkS (f_ma o) mfit c a be (fun _ => 0) 0), set_chisq o c, Ok tt)
    | Err e => (None, o, Err e)
    | UB => (None, o, UB)
    | NoFuel => (None, o, NoFuel)
    end
  else (st, o, Ok tt).

(** models pdflsmin.cc:117-122 *)
Definition augment (mfit : nat) (al covar : fmat) (lambda : R) : fmat :=
  loop (up mfit) (fun j cv =>
    let cv := loop (up mfit) (fun k cv => mset cv j k (al j k)) cv in
    mset cv j j (al j j * (1 + lambda))) covar.

(** models pdflsmin.cc:154-155: the trial parameters; j counts the free ones *)
Definition trial (ma : nat) (ia : nat -> bool) (a da atry : nat -> R) : nat -> R :=
  snd (loop (up ma) (fun l s =>
    if ia l then let (j, t) := s : nat * (nat -> R) in (S j, rset t l (a l + da (S j))) else s) (0%nat, atry)).

(** models pdflsmin.cc:160-162 *)
Definition copy_square (n : nat) (from to : fmat) : fmat :=
  loop (up n) (fun j t => loop (up n) (fun k t => mset t j k (from j k)) t) to.
Definition copy_vec (n : nat) (from to : nat -> R) : nat -> R :=
  loop (up n) (fun j t => rset t j (from j)) to.

(** models pdflsmin.cc:116-171 together with the wrapper 36-63, after the
    initialisation.  [a] is the local copy of fit.p, written back to fit.p
    (pdflsmin.cc:57) unless an exception leaves mrqmin.  Overruns of the static
    arrays or of covar/alpha are UB.  When gaussj throws, the half-reduced
    content of covar is not modelled (covar is written again before it is
    read). *)
Definition mrq_main (st : statics) (o : fobj) : option statics * fobj * outcome unit :=
  let ma := f_ma o in
  let a := f_p o in
  let mfit := s_mfit st in
  if negb ((ma <=? s_ma st) && (mfit <=? f_dim o) && (ma <=? f_dim o))%nat%bool then (Some st, o, UB) else
  let cv := augment mfit (f_alpha o) (f_covar o) (f_alambda o) in
  match gaussj mfit 1 cv (fun j _ => s_beta st j) with
  | Ok (cv, oneda) =>
      let da := copy_vec mfit (fun j => oneda j 1%nat) (s_da st) in
      let dan := Nat.max (s_dan st) mfit in
      let st := mkS (s_ma st) mfit (s_ochisq st) (s_atry st) (s_beta st) da dan in
      if Req_EM_T (f_alambda o) 0 then
        (None, set_alpha (set_covar o (covsrt cv ma (f_ia o) mfit)) (covsrt (f_alpha o) ma (f_ia o) mfit), Ok tt)
      else
        let o := set_covar o cv in
        if (dan <? free_count (f_ia o) ma)%nat then (Some st, o, UB) else
        let atry := trial ma (f_ia o) a da (s_atry st) in
        let '(o, cv, da, r) := mrqcof o atry (f_covar o) da in
        let o := set_covar o cv in
        let st := mkS (s_ma st) mfit (s_ochisq st) atry (s_beta st) da dan in
        match r with
        | Ok c =>
            let o := set_chisq o c in
            if Rlt_dec c (s_ochisq st) then
              (Some (mkS (s_ma st) mfit c atry (copy_vec mfit da (s_beta st)) da dan),
               set_p (set_lambda (set_alpha o (copy_square mfit cv (f_alpha o))) (f_alambda o * / 10))
                 (copy_vec ma atry a), Ok tt)
            else
              (Some st, set_p (set_lambda (set_chisq o (s_ochisq st)) (f_alambda o * 10)) a, Ok tt)
        | Err e => (Some st, o, Err e)
        | UB => (Some st, o, UB)
        | NoFuel => (Some st, o, NoFuel)
        end
  | Err e => (Some st, set_covar o cv, Err e)
  | UB => (Some st, o, UB)
  | NoFuel => (Some st, o, NoFuel)
  end.

(** models pdflsmin.cc:36-171 *)
Definition mrqmin (st : option statics) (o : fobj) : option statics * fobj * outcome unit :=
  let '(st, o, r) := mrq_init st o in
  match r with
  | Ok _ => match st with Some st => mrq_main st o | None => (None, o, UB) end
  | e => (st, o, e)
  end.

(** * refinement of one object *)
Definition lst : Type := (option statics * fobj)%type.

(** double_max of MathUtils.h:31; the value plays no role *)
Definition double_max : R := 2 ^ 1024.

(** models fit.cc:63-83 and the part of fit_setup (fit.cc:174-285) that
    concerns the solver: it may throw, otherwise covar and alpha are resized to
    the number of parameters *)
Definition ls_setup (s : lst) : lst * outcome unit :=
  let (st, o) := s in
  let o := set_chisq (set_lambda o (-1)) double_max in
  match f_setup o with
  | Ok _ => ((st, set_dim o (f_ma o)), Ok tt)
  | e => ((st, o), e)
  end.

(** models fit.cc:95-103 *)
Definition ls_iterate (toler : R) (s : lst) : lst * outcome bool :=
  let (st, o) := s in
  let o := set_ochisq o (f_chisq o) in
  let '(st, o, r) := mrqmin st o in
  ((st, o), omap (fun _ => if Rle_dec (f_ochisq o - f_chisq o) (toler * f_ochisq o) then true else false) r).

(** models fit.cc:124-138; fit_errors is modelled in ErrorModel.v and left out
    here, the final fit_theory(false, false) may throw *)
Definition ls_finish (s : lst) : lst * outcome unit :=
  let (st, o) := s in
  let o := set_lambda o 0 in
  let '(st, o, r) := mrqmin st o in
  ((st, o), obind r (fun _ => omap (fun _ => tt) (f_theory o (f_p o)))).

Definition ls_step (toler : R) : bool -> ctl -> lst -> bool * ctl * lst * outcome bool :=
  refine_step ls_setup (ls_iterate toler) ls_finish.
Definition ls_refine (toler : R) : nat -> bool -> ctl -> lst -> bool * ctl * lst * outcome unit :=
  refine ls_setup (ls_iterate toler) ls_finish.

(** * reports *)

(** models pdf.cc:1141-1149 weighedSquareObs and the sum over the data sets kept
    in fit.wnorm (fit.cc:329, 340, returned by fit.cc:345-348) *)
Definition wsqobs (d : dsval) : R := loop (points d) (fun i s => s + d_w d i * d_obs d i * d_obs d i) 0.
Definition total_wsqobs (ds : list dsval) : R := fold_left (fun s d => s + wsqobs d) ds 0.

(** models pdf.cc:1124-1138 getcrw *)
Definition getcrw (total : R) (cum : list R) : list R :=
  let rec := if Rlt_dec 0 total then 1 / total else 1 in
  map (fun x => sqrt (x * rec)) cum.

(** models pdf.cc:1152-1157 getdsrw *)
Definition getdsrw (total : R) (cum : list R) : R := back0 (getcrw total cum).

(** * several objects in one process *)

(** what a user can change in a PdfFit object between refinements, as far as the
    solver is concerned: the parameters, their flags, and (through structures,
    data and constraints) what the model computes *)
Record sess : Type := mkSess {
  se_ma : nat; se_p : nat -> R; se_ia : nat -> bool;
  se_theory : (nat -> R) -> outcome (list dsval); se_setup : outcome unit }.
Definition sess_of (o : fobj) : sess := mkSess (f_ma o) (f_p o) (f_ia o) (f_theory o) (f_setup o).
Definition edit (g : sess -> sess) (o : fobj) : fobj :=
  let e := g (sess_of o) in
  mkF (se_ma e) (se_p e) (se_ia e) (se_theory e) (se_setup e)
    (f_covar o) (f_alpha o) (f_dim o) (f_chisq o) (f_ochisq o) (f_alambda o) (f_cum o).

(** fit_running (fit.cc:56) and the statics of mrqmin (pdflsmin.cc:90-91) exist
    once per process; iter, stagnating and the rest once per object *)
Record world : Type := mkW { w_run : bool; w_st : option statics; w_obj : nat -> ctl * fobj }.

Inductive wop : Type :=
| WEdit (i : nat) (g : sess -> sess)   (* any call other than a refinement, on object i *)
| WStep (i : nat)                      (* refine_step of object i *)
| WRefine (i : nat).                   (* refine of object i *)

Definition w_put (w : world) (i : nat) (running : bool) (st : option statics) (c : ctl) (o : fobj) : world :=
  mkW running st (fun k => if (k =? i)%nat then (c, o) else w_obj w k).

(** one call, with its outcome; a refine_step that returns 0 or 1 is [Ok].
    refine makes at most 101 calls of refine_step. *)
Definition w_call (toler : R) (w : world) (op : wop) : world * outcome unit :=
  match op with
  | WEdit i g => let (c, o) := w_obj w i in (w_put w i (w_run w) (w_st w) c (edit g o), Ok tt)
  | WStep i =>
      let (c, o) := w_obj w i in
      let '(running, c, (st, o), r) := ls_step toler (w_run w) c (w_st w, o) in
      (w_put w i running st c o, omap (fun _ => tt) r)
  | WRefine i =>
      let (c, o) := w_obj w i in
      let '(running, c, (st, o), r) := ls_refine toler 101 (w_run w) c (w_st w, o) in
      (w_put w i running st c o, r)
  end.

(** a sequence of calls that all return normally *)
Fixpoint w_calls (toler : R) (w : world) (ops : list wop) : option world :=
  match ops with
  | [] => Some w
  | op :: ops =>
      let (w, r) := w_call toler w op in
      match r with Ok _ => w_calls toler w ops | _ => None end
  end.
