(** Specification vocabulary for files and names. *)
From Coq Require Import Ascii String.
From Coq Require Import List ZArith Reals Bool.
From Verif Require Import Base BindModel FileModel.
From Verif Require ParserModel SessModel.
Import ListNotations.

(** what has been loaded since the last reset: the label of each structure; for each data
    set the name it has in the engine, and its label if it has one *)
Definition shelf : Type := list text * list (text * option text).
Definition shelve (sh : shelf) (call : pop * bool) : shelf :=
  let (st, da) := sh in
  match call with
  | (_, false) => sh
  | (PStruct f, true) => (st ++ [f], da)
  | (PStructString _ n, true) => (st ++ [n], da)
  | (PAddStructure _, true) => (st ++ [[]], da)
  | (PData f, true) => (st, da ++ [(f, Some f)])
  | (PDataString t _, true) => (st, da ++ [(chars "string", Some t)])
  | (PDataLists _ _ _ n, true) => (st, da ++ [(n, Some n)])
  | (PAlloc _ _ _ _ _, true) => (st, da ++ [(chars "Dummy set", None)])
  | (PReset, true) => ([], [])
  | (POther _, true) => sh
  end.
Definition labels (l : list (text * option text)) : list text :=
  flat_map (fun x => match snd x with Some n => [n] | None => [] end) l.
(** calls that load something *)
Definition loading (o : pop) : Prop := match o with POther _ | PReset => False | _ => True end.
(** object and engine of a user who made these calls *)
Definition reached look mks mkd fuel (l : list (files * pop)) (oks : list bool) (p : pf) : Prop := prun look mks mkd fuel l pf_new = Some (p, oks).
(** the file has this content, all others are as before *)
Definition only_file (fs fs' : files) (f t : text) : Prop := fs' f = Some t /\ forall g, g <> f -> fs' g = fs g.
(** the file may be cut off *)
Definition stored (room : nat) (fs fs' : files) (f t : text) : Prop :=
  exists u v, t = u ++ v /\ only_file fs fs' f u /\ (length t <= room -> v = [])%nat.
(** what saving under a name does, compared with asking for the text *)
Definition saves (can : text -> bool) (room : text -> nat) (there : bool) (call : text -> files -> files * pyres text) : Prop :=
  forall fs,
  (there = false -> forall f, call f fs = (fs, PExc XUnassigned)) /\
  fst (call [] fs) = fs /\
  forall f, there = true -> f <> [] ->
    (can f = false -> (exists t, snd (call [] fs) = PVal t) -> call f fs = (fs, PExc XIO)) /\
    (can f = true -> forall t, snd (call [] fs) = PVal t ->
       snd (call f fs) = PVal t /\ stored (room f) fs (fst (call f fs)) f t).
(** there is a set, or phase, with this number *)
Definition there (n : nat) (i : Z) : bool := ((1 <=? i) && (i <=? Z.of_nat n))%Z.
