(** Model of the objects of PeriodicTable (PeriodicTable.h:32-74, PeriodicTable.cc:49-213):
    elements in use, their copies with the standard values, and the two indices.
    ScatModel has the values; here the table changes. *)
From Coq Require Import String List Arith Bool.
From Verif Require Import Base.
Import ListNotations.
Local Open Scope string_scope.
Local Open Scope list_scope.

Section Pt.
Context {D : Type}.

(** models AtomType.h:29-41; D stands for the numbers *)
Record atype : Type := mkAt { a_symbol : string; a_name : string; a_data : D }.
(** models PeriodicTable.h:63-66.  pt_public and pt_backup change only together
    (PeriodicTable.cc:139-141, 155-156, 187-193, 211-212), so they are kept as a list of
    pairs of a public and a backup pointer; per address made by new the object, None
    after delete *)
Record ptab : Type := mkPt { pt_heap : list (option atype); pt_pairs : list (nat * nat);
  pt_sym : list (string * nat); pt_nam : list (string * nat) }.

(** std::map, PeriodicTable.h:63-64: find, assignment through [] and erase as used at
    PeriodicTable.cc:62,74,94-97,124,131,142-143,152-153; the first entry of a key counts *)
Definition mfind (k : string) (m : list (string * nat)) : option nat :=
  match find (fun x => String.eqb (fst x) k) m with Some x => Some (snd x) | None => None end.
Definition mset (k : string) (v : nat) (m : list (string * nat)) : list (string * nat) := (k, v) :: m.
Definition merase (k : string) (m : list (string * nat)) : list (string * nat) := filter (fun x => negb (String.eqb (fst x) k)) m.

(** the object a pointer points to, PeriodicTable.cc:152,178 *)
Definition deref (h : list (option atype)) (p : nat) : outcome atype :=
  match nth_error h p with Some (Some a) => Ok a | _ => UB end.
(** delete, PeriodicTable.cc:155-156,208-209 *)
Definition pfree (h : list (option atype)) (p : nat) : outcome (list (option atype)) :=
  obind (deref h p) (fun _ => Ok (upd p None h)).

(** models PeriodicTable.cc:139-143 and 192-195: a pair of new objects; the
    backup comes first *)
Definition add (a : atype) (s : ptab) : ptab :=
  let n := length (pt_heap s) in
  mkPt (pt_heap s ++ [Some a] ++ [Some a]) (pt_pairs s ++ [(S n, n)]) (mset (a_symbol a) (S n) (pt_sym s)) (mset (a_name a) (S n) (pt_nam s)).
(** models PeriodicTable.cc:198-199, symbol_index[k] = lookup(of); both are in
    standard case.  Lookup tries the symbols, then the names (95-97) *)
Definition alias (k of : string) (s : ptab) : ptab :=
  match (match mfind of (pt_sym s) with Some p => Some p | None => mfind of (pt_nam s) end) with
  | Some p => mkPt (pt_heap s) (pt_pairs s) (mset k p (pt_sym s)) (pt_nam s)
  | None => s (* throws; not for the table of the program *)
  end.
(** models PeriodicTable.cc:182-200 init for the elements tbl of fill_pt_backup *)
Definition pt_init (tbl : list atype) : ptab :=
  alias "3-H" "T" (alias "2-H" "D" (fold_left (fun s a => add a s) tbl (mkPt [] [] [] []))).

(** models PeriodicTable.cc:59-83 symbol and name; None when they throw *)
Definition pt_symbol (s : ptab) (k : string) : option nat := mfind k (pt_sym s).
Definition pt_name (s : ptab) (k : string) : option nat := mfind k (pt_nam s).

(** calls of the public member functions that change the table
    (PeriodicTable.h:56-59), and writing
    through a pointer that symbol, name or lookup returned *)
Inductive pop : Type :=
| PDef (a : atype)
| PDelete (p : nat)
| PReset (p : nat)
| PResetAll
| PWrite (p : nat) (a : atype).

(** models PeriodicTable.cc:172-180, one turn of the loop in resetAll *)
Definition restore (h : list (option atype)) (x : nat * nat) : outcome (list (option atype)) :=
  obind (deref h (snd x)) (fun a => obind (deref h (fst x)) (fun _ => Ok (upd (fst x) (Some a) h))).

(** one call, as cited in each case *)
Definition pstep (s : ptab) (op : pop) : outcome ptab :=
  match op with
  | PDef a => (* models PeriodicTable.cc:121-144 *)
      match mfind (a_symbol a) (pt_sym s), mfind (a_name a) (pt_nam s) with
      | None, None => Ok (add a s)
      | _, _ => Err ErrPlain
      end
  | PDelete p => (* models PeriodicTable.cc:146-157 *)
      match find (fun x => Nat.eqb (fst x) p) (pt_pairs s) with
      | None => Ok s
      | Some x =>
          obind (deref (pt_heap s) p) (fun a =>
          obind (pfree (pt_heap s) (fst x)) (fun h =>
          obind (pfree h (snd x)) (fun h =>
          Ok (mkPt h (filter (fun y => negb (Nat.eqb (fst y) p)) (pt_pairs s)) (merase (a_symbol a) (pt_sym s)) (merase (a_name a) (pt_nam s))))))
      end
  | PReset p => (* models PeriodicTable.cc:159-170; the iterator ii is never set *)
      if existsb (fun x => Nat.eqb (snd x) p) (pt_pairs s) then UB else Err ErrPlain
  | PResetAll => (* models PeriodicTable.cc:172-180 *)
      obind (ofold restore (pt_pairs s) (pt_heap s)) (fun h => Ok (mkPt h (pt_pairs s) (pt_sym s) (pt_nam s)))
  | PWrite p a =>
      obind (deref (pt_heap s) p) (fun _ => Ok (mkPt (upd p (Some a) (pt_heap s)) (pt_pairs s) (pt_sym s) (pt_nam s)))
  end.
(** a call whose exception is caught leaves the table as it is: all throws are
    before the first change (PeriodicTable.cc:124-137, 162-167) *)
Definition pdo (s : ptab) (op : pop) : outcome ptab := match pstep s op with Err _ => Ok s | r => r end.

(** models PeriodicTable.cc:202-213 clear, called by the destructor *)
Definition pt_clear (s : ptab) : outcome (list (option atype)) :=
  ofold (fun h x => obind (pfree h (fst x)) (fun h => pfree h (snd x))) (pt_pairs s) (pt_heap s).
End Pt.
Arguments atype D : clear implicits.
Arguments ptab D : clear implicits.
Arguments pop D : clear implicits.
