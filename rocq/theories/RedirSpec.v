(** Specification for C67: which texts a destination should have received. *)
From Coq Require Import List ZArith Bool.
From Verif Require Import Base RedirModel.
Import ListNotations.

(** the file chosen by the calls so far: that of the last redirect that was accepted,
    none at the beginning and after restore *)
Definition choose (e : event) (c : option nat) : option nat :=
  match e with ERedirect f true => Some f | ERestore => None | _ => c end.
Definition chosen (l : list event) : option nat := fold_left (fun c e => choose e c) l None.
Definition place (c : option nat) : dest := match c with Some f => DFile f | None => DCout end.

(** text written by the engine in an event *)
Definition engine_text (e : event) : text := match e with EEngine t | EStep _ t => t | _ => [] end.
Definition any_text (e : event) : text := match e with EEngine t | EStep _ t | EPython t => t | _ => [] end.
Definition dest_eqb (a b : dest) : bool :=
  match a, b with DCout, DCout | DSys, DSys => true | DFile f, DFile g => Nat.eqb f g | _, _ => false end.
(** the texts [what] of the events, in order, of those that happen while [d] is the
    place chosen *)
Fixpoint wanted (what : event -> text) (d : dest) (c : option nat) (l : list event) : text :=
  match l with
  | [] => []
  | e :: r => (if dest_eqb (place c) d then what e else []) ++ wanted what d (choose e c) r
  end.

(** what has arrived at [d], in order *)
Fixpoint arrived (by_ : src -> bool) (d : dest) (l : list (src * dest * text)) : text :=
  match l with
  | [] => []
  | (w, d', t) :: r => arrived by_ d r ++ (if by_ w && dest_eqb d' d then t else [])
  end.
Definition engine_only (w : src) : bool := match w with Engine => true | Python => false end.
Definition everyone (w : src) : bool := true.

(** [l] is an order in which things can happen when the steps [live] are under way:
    only a step that has begun writes or ends, and a number is not used twice at a time *)
Fixpoint possible (live : list nat) (l : list event) : Prop :=
  match l with
  | [] => True
  | EBegin k :: r => ~ In k live /\ possible (k :: live) r
  | EStep k _ :: r => In k live /\ possible live r
  | EEnd k :: r => In k live /\ possible (remove Nat.eq_dec k live) r
  | _ :: r => possible live r
  end.
(** the steps still under way afterwards *)
Fixpoint under_way (live : list nat) (l : list event) : list nat :=
  match l with
  | [] => live
  | EBegin k :: r => under_way (k :: live) r
  | EEnd k :: r => under_way (remove Nat.eq_dec k live) r
  | _ :: r => under_way live r
  end.
(** at most one step at a time, and output is not sent elsewhere meanwhile *)
Fixpoint calm (running : bool) (l : list event) : Prop :=
  match l with
  | [] => True
  | EBegin _ :: r => running = false /\ calm true r
  | EEnd _ :: r => calm false r
  | ERedirect _ true :: r | ERestore :: r => running = false /\ calm false r
  | _ :: r => calm running r
  end.
Definition moves (e : event) : bool := match e with ERedirect _ true | ERestore => true | _ => false end.

(** a program with one thread: calls one after the other *)
Inductive call : Type := CRedirect (f : nat) (ok : bool) | CRestore | CEngine (t : text) | CPython (t : text) | CRefineStep (ts : list text).
Definition events_of (c : call) : list event :=
  match c with
  | CRedirect f ok => [ERedirect f ok]
  | CRestore => [ERestore]
  | CEngine t => [EEngine t]
  | CPython t => [EPython t]
  | CRefineStep ts => EBegin 0 :: map (EStep 0) ts ++ [EEnd 0]
  end.
Definition events (p : list call) : list event := flat_map events_of p.

(** the text of the Python class: it goes to the file of the last redirect that was
    accepted, whether or not the output has been restored since *)
Definition python_only (w : src) : bool := match w with Engine => false | Python => true end.
Fixpoint python_wanted (d at_ : dest) (l : list event) : text :=
  match l with
  | [] => []
  | EPython t :: r => (if dest_eqb at_ d then t else []) ++ python_wanted d at_ r
  | ERedirect f true :: r => python_wanted d (DFile f) r
  | _ :: r => python_wanted d at_ r
  end.
