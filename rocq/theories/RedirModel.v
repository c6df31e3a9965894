(** Model of where output goes: the engine writes to the stream behind the pointer
    [NS_PDFFIT2::pout], the Python class to [output.stdout], and both can be sent to a
    Python file and back (misc.cc, PyFileStreambuf.h, output.py).  refine_step runs
    without the interpreter lock, so other calls may come between its writes: a run is a
    list of events.  Writing to a Python file is taken to succeed (an exception of its
    write method is dropped in PyFileStreambuf.h:71-72 and not modelled); two threads
    using one stream at the very same moment are not modelled either. *)
From Coq Require Import List ZArith Bool.
From Verif Require Import Base.
From Verif Require ParserModel.
Import ListNotations.
Notation text := ParserModel.text.
Local Open Scope Z_scope.

(** std::cout, sys.stdout as it was at import (output.py:23), a file of the caller *)
Inductive dest : Type := DCout | DSys | DFile (f : nat).
(** buffer of the stream made by redirect_stdout: py_stdout_streambuf, or msgout of
    the refine_step numbered k (misc.cc:401-431) *)
Inductive sbuf : Type := BPy | BMsg (k : nat).
(** who wrote: engine or Python class *)
Inductive src : Type := Engine | Python.
(** [pout]: None = &std::cout (OutputStreams.cc:21), Some b = the stream of
    misc.cc:2198 with buffer b.  [pybuf]: py_stdout_streambuf with the file it holds
    (misc.cc:38).  [held]: msgout of the refine_steps under way.  [pystd]: output.stdout.
    [refs]: references to the file held by the module.  [log]: all writes that arrived,
    the last one first. *)
Record ost : Type := mk { pout : option sbuf; pybuf : option nat; held : list (nat * text); pystd : dest;
  refs : nat -> Z; log : list (src * dest * text) }.
(** OutputStreams.cc:21, misc.cc:38, output.py:23 *)
Definition init : ost := mk None None [] DSys (fun _ => 0) [].

Definition arrive (w : src) (d : dest) (t : text) (s : ost) : ost :=
  mk (pout s) (pybuf s) (held s) (pystd s) (refs s) ((w, d, t) :: log s).
Definition addref (f : nat) (n : Z) (r : nat -> Z) : nat -> Z := fun g => if Nat.eqb g f then r g + n else r g.
(** the text so far in msgout of step k, none when k is not under way *)
Fixpoint held_of (k : nat) (l : list (nat * text)) : option text :=
  match l with [] => None | (j, t) :: r => if Nat.eqb j k then Some t else held_of k r end.
Fixpoint held_add (k : nat) (t : text) (l : list (nat * text)) : list (nat * text) :=
  match l with [] => [] | (j, u) :: r => if Nat.eqb j k then (j, u ++ t) :: r else (j, u) :: held_add k t r end.
Definition held_del (k : nat) (l : list (nat * text)) : list (nat * text) := filter (fun p => negb (Nat.eqb (fst p) k)) l.

(** [*pout << t]; PyFileStreambuf.h:68-82 calls the write method of the file.  [gil]:
    the interpreter lock is held; calling Python without it is undefined, as is a
    buffer that has been destroyed. *)
Definition engine_write (gil : bool) (t : text) (s : ost) : outcome ost :=
  match pout s with
  | None => Ok (arrive Engine DCout t s)
  | Some BPy => match pybuf s with
                | Some f => if gil then Ok (arrive Engine (DFile f) t s) else UB
                | None => UB
                end
  | Some (BMsg k) => match held_of k (held s) with
                     | Some _ => Ok (mk (pout s) (pybuf s) (held_add k t (held s)) (pystd s) (refs s) (log s))
                     | None => UB
                     end
  end.
(** print(t, file=output.stdout) in pdffit.py *)
Definition python_write (t : text) (s : ost) : ost := arrive Python (pystd s) t s.

(** misc.cc:2176-2203 and PyFileStreambuf.h:45-64.  [ok]: the object has attributes
    write and flush.  The second component is false when TypeError is raised. *)
Definition redirect_engine (f : nat) (ok : bool) (s : ost) : ost * bool :=
  if ok then
    let r0 := match pybuf s with Some _ => refs s | None => addref f 1 (refs s) end in
    let old := match pybuf s with Some g => g | None => f end in
    let r1 := addref old (-1) (addref f 1 r0) in
    (mk (match pout s with None => Some BPy | Some b => Some b end) (Some f) (held s) (pystd s) r1 (log s), true)
  else (s, false).
(** output.py:29-39: the module variable is set only when the engine took the file *)
Definition redirect (f : nat) (ok : bool) (s : ost) : ost :=
  let (s1, done) := redirect_engine f ok s in
  if done then mk (pout s1) (pybuf s1) (held s1) (DFile f) (refs s1) (log s1) else s1.
(** misc.cc:2210-2232, PyFileStreambuf.h:52-55 *)
Definition restore_engine (s : ost) : ost :=
  mk None None (held s) (pystd s) (match pybuf s with Some f => addref f (-1) (refs s) | None => refs s end) (log s).
(** output.py:42-48: the module variable is declared global and left as it is *)
Definition restore (s : ost) : ost := restore_engine s.

(** constructor of RefineStepHelper, misc.cc:410-417.  With a stream buffer and pout
    still std::cout the buffer of std::cout would be exchanged; that state does not
    arise, the model has UB for it. *)
Definition step_begin (k : nat) (s : ost) : outcome ost :=
  let h := (k, []) :: held s in
  match pybuf s with
  | Some _ => match pout s with
              | Some _ => Ok (mk (Some (BMsg k)) (pybuf s) h (pystd s) (refs s) (log s))
              | None => UB
              end
  | None => Ok (mk (pout s) None h (pystd s) (refs s) (log s))
  end.
(** clean() of RefineStepHelper, misc.cc:420-428, called once on every way out of
    refine_step (misc.cc:446-476), after which msgout is destroyed *)
Definition step_end (k : nat) (s : ost) : outcome ost :=
  match held_of k (held s) with
  | None => UB
  | Some t =>
      let h := held_del k (held s) in
      match pybuf s with
      | Some _ => match pout s with
                  | Some _ => engine_write true t (mk (Some BPy) (pybuf s) h (pystd s) (refs s) (log s))
                  | None => UB
                  end
      | None => Ok (mk (pout s) None h (pystd s) (refs s) (log s))
      end
  end.

(** one thing that happens in some thread of the program.  [EEngine]: output of an
    engine call other than refine_step, made with the interpreter lock; [EStep k]: output
    of the refine_step numbered k, made without it. *)
Inductive event : Type := ERedirect (f : nat) (ok : bool) | ERestore | EEngine (t : text) | EPython (t : text)
  | EBegin (k : nat) | EStep (k : nat) (t : text) | EEnd (k : nat).
Definition event_run (e : event) (s : ost) : outcome ost :=
  match e with
  | ERedirect f ok => Ok (redirect f ok s)
  | ERestore => Ok (restore s)
  | EEngine t => engine_write true t s
  | EPython t => Ok (python_write t s)
  | EBegin k => step_begin k s
  | EStep _ t => engine_write false t s
  | EEnd k => step_end k s
  end.
Fixpoint run (l : list event) (s : ost) : outcome ost :=
  match l with [] => Ok s | e :: r => obind (event_run e s) (run r) end.
