(** Model of the session state of PdfFit (pdffit.h:210-374): phases, data sets,
    selections, current phase and data set, and the variable references handed
    to Python (misc.cc).  Objects created with [new] get a fresh address and a
    pointer to an object that has been deleted is dangling; using it is UB.
    Reading and checking of file contents is in other files; here a reader is
    represented by its result. *)
From Coq Require Import List ZArith Reals Ascii Bool.
From Verif Require Import Base.
Import ListNotations.
Local Open Scope Z_scope.

Definition addr : Type := nat.

(** per atom variables: pos, u and occ of Atom.h *)
Inductive acomp : Type := Ax | Ay | Az | Au11 | Au22 | Au33 | Au12 | Au13 | Au23 | Aocc.
(** the refinable and other user variables inside a Phase (a0, win, pscale, ...),
    its atoms and a DataSet; models pdffit.h:383-388, 506-520 and Atom.h *)
Inductive loc : Type :=
| LLat (j : nat) | LPscale | LSpdiameter | LStepcut | LDelta2 | LDelta1 | LSratio | LRcut
| LAtom (ia : nat) (c : acomp)
| LDscale | LQdamp | LQbroad.
Definition loc_eq_dec : forall a b : loc, {a = b} + {a <> b}.
Proof. decide equality; try apply Nat.eq_dec. decide equality. Defined.

Definition tyid : Type := list ascii.  (* symbol of the atom type *)

(** models the part of Phase (pdffit.h:477-530) that the session functions use *)
Record phase : Type := mkPh {
  ph_addr : addr; ph_iphase : Z; ph_types : list tyid; ph_val : loc -> R }.
Definition ph_natoms (p : phase) : Z := Z.of_nat (length (ph_types p)).

(** models the part of Pdf and DataSet (pdffit.h:377-474) that the session
    functions use.  psel holds NULL or a phase; phase_ignore_i and _j map a phase
    to a set of atom indices, kept here as a list. *)
Record dset : Type := mkDs {
  ds_addr : addr; ds_iset : Z; ds_psel : list (option addr);
  ds_igni : addr -> list nat; ds_ignj : addr -> list nat;
  ds_rmin : R; ds_rmax : R; ds_rfmin : R; ds_rfmax : R;
  ds_bin : Z; ds_obs : list R; ds_wic : list R; ds_val : loc -> R }.

(** a RefVar or NonRefVar (pdffit.h:72-107): NULL or the address of a double *)
Definition ptr : Type := option (addr * loc).
(** the vectors lat, x, ..., occ and the scalar references of pdffit.h:352-361 *)
Inductive vname : Type := Vlat | Vatom (c : acomp).
Inductive sname : Type := Spscale | Sspdiameter | Sstepcut | Sdelta2 | Sdelta1 | Ssratio | Srcut | Sdscale | Sqdamp | Sqbroad.
(** std::vector<RefVar>: elements, capacity and how often its storage moved *)
Record vec : Type := mkVec { v_elems : list ptr; v_cap : nat; v_gen : nat }.

Record session : Type := mkS {
  s_next : addr;                (* next fresh address *)
  s_phases : list phase; s_nphase : Z; s_total : Z; s_curphase : option addr;
  s_sets : list dset; s_nset : Z; s_curset : option addr;
  s_vec : vname -> vec; s_sca : sname -> ptr }.

(** models pdffit.cc:60-64 and 79-101, the constructor *)
Definition init : session :=
  mkS 0%nat [] 0 0 None [] 0 None (fun _ => mkVec [] 0%nat 0%nat) (fun _ => None).

Definition find_phase (s : session) (a : addr) : option phase := find (fun p => Nat.eqb (ph_addr p) a) (s_phases s).
Definition find_set (s : session) (a : addr) : option dset := find (fun d => Nat.eqb (ds_addr d) a) (s_sets s).

(** ip in 1..n gives the position ip-1 *)
Definition one_based (ip n : Z) : option nat := if (ip <? 1) || (n <? ip) then None else Some (Z.to_nat (ip - 1)).

(** libstdc++ vector::resize: the storage moves when the capacity is too small *)
Definition vec_resize (n : nat) (v : vec) : vec :=
  let e := firstn n (v_elems v) ++ repeat None (n - length (v_elems v)) in
  if (n <=? v_cap v)%nat then mkVec e (v_cap v) (v_gen v)
  else mkVec e (length (v_elems v) + Nat.max (length (v_elems v)) (n - length (v_elems v))) (S (v_gen v)).
(** assign element k through setptr *)
Definition vec_fill (f : nat -> ptr) (v : vec) : vec := mkVec (map f (seq 0 (length (v_elems v)))) (v_cap v) (v_gen v).

(** models pdffit.cc:162-219 setphase *)
Definition setphase (ip : Z) (s : session) : session * outcome unit :=
  match one_based ip (s_nphase s) with
  | None => (s, Err ErrUnassigned)
  | Some k =>
      match nth_error (s_phases s) k with
      | None => (s, UB)
      | Some p =>
          let a := ph_addr p in
          let n := length (ph_types p) in
          (mkS (s_next s) (s_phases s) (s_nphase s) (s_total s) (Some a) (s_sets s) (s_nset s) (s_curset s)
             (fun v => match v with
                       | Vlat => vec_fill (fun j => Some (a, LLat j)) (vec_resize 6 (s_vec s v))
                       | Vatom c => vec_fill (fun ia => Some (a, LAtom ia c)) (vec_resize n (s_vec s v))
                       end)
             (fun v => match v with
                       | Spscale => Some (a, LPscale) | Sspdiameter => Some (a, LSpdiameter) | Sstepcut => Some (a, LStepcut)
                       | Sdelta2 => Some (a, LDelta2) | Sdelta1 => Some (a, LDelta1) | Ssratio => Some (a, LSratio)
                       | Srcut => Some (a, LRcut) | _ => s_sca s v
                       end), Ok tt)
      end
  end.

(** models pdffit.cc:221-237 setdata *)
Definition setdata (is : Z) (s : session) : session * outcome unit :=
  match one_based is (s_nset s) with
  | None => (s, Err ErrUnassigned)
  | Some k =>
      match nth_error (s_sets s) k with
      | None => (s, UB)
      | Some d =>
          let a := ds_addr d in
          (mkS (s_next s) (s_phases s) (s_nphase s) (s_total s) (s_curphase s) (s_sets s) (s_nset s) (Some a) (s_vec s)
             (fun v => match v with Sdscale => Some (a, LDscale) | Sqdamp => Some (a, LQdamp) | Sqbroad => Some (a, LQbroad) | _ => s_sca s v end), Ok tt)
      end
  end.

(** models pdf.cc:1114-1121 DataSet::selphase (resize fills with NULL) *)
Definition ds_selphase (ip : nat) (a : addr) (d : dset) : dset :=
  let l := if (length (ds_psel d) <=? ip)%nat then ds_psel d ++ repeat None (S ip - length (ds_psel d)) else ds_psel d in
  mkDs (ds_addr d) (ds_iset d) (upd ip (Some a) l) (ds_igni d) (ds_ignj d) (ds_rmin d) (ds_rmax d) (ds_rfmin d) (ds_rfmax d)
    (ds_bin d) (ds_obs d) (ds_wic d) (ds_val d).

(** models the loop pdf.cc:98-99 (1311-1312, 1334, 1363-1364) over the phases *)
Fixpoint sel_all_from (k : nat) (l : list phase) (d : dset) : dset :=
  match l with
  | [] => d
  | p :: r => sel_all_from (S k) r (ds_selphase k (ph_addr p) d)
  end.

(** models pdf.cc:98-103 (1310-1316, 1333-1338, 1362-1368), registering a new
    data set; setdata cannot fail here *)
Definition add_set (d : dset) (s : session) : session * outcome unit :=
  let d := sel_all_from 0 (s_phases s) d in
  setdata (s_nset s + 1)
    (mkS (s_next s) (s_phases s) (s_nphase s) (s_total s) (s_curphase s) (s_sets s ++ [d]) (s_nset s + 1) (s_curset s) (s_vec s) (s_sca s)).

(** new DataSet(this) takes an address even if the object is deleted again *)
Definition bump (s : session) : session :=
  mkS (S (s_next s)) (s_phases s) (s_nphase s) (s_total s) (s_curphase s) (s_sets s) (s_nset s) (s_curset s) (s_vec s) (s_sca s).

(** initial values of a data set's variables; dscale 1, qbroad 0 (pdffit.h:424-428) *)
Definition ds_vals (qdamp : R) (l : loc) : R := match l with LDscale => 1%R | LQdamp => qdamp | _ => 0%R end.

(** models pdf.cc:48-104 alloc.  On an error the new object is leaked; this is
    not visible in the session. *)
Definition alloc (qmax qdamp rmin rmax : R) (bin : Z) (s : session) : session * outcome unit :=
  if Rlt_dec rmax rmin then (s, Err ErrValue)
  else if Rlt_dec rmin 0 then (s, Err ErrValue)
  else if Rlt_dec rmax 0 then (s, Err ErrValue)
  else if bin <=? 1 then (s, Err ErrValue)
  else if Rlt_dec qmax 0 then (s, Err ErrValue)
  else if Rlt_dec qdamp 0 then (s, Err ErrValue)
  else
    let n := Z.to_nat bin in
    add_set (mkDs (s_next s) (s_nset s + 1) [] (fun _ => []) (fun _ => []) rmin rmax rmin rmax bin (repeat 0%R n) (repeat 1%R n) (ds_vals qdamp)) (bump s).

(** what DataSet::read_data_* leave in the data set when they succeed *)
Record data_content : Type := mkDc { dc_rmin : R; dc_rmax : R; dc_qdamp : R; dc_obs : list R; dc_wic : list R }.

(** models pdf.cc:1294-1318, 1324-1341, 1348-1371 read_data_arrays, read_data_string, read_data *)
Definition read_data (r : err + data_content) (s : session) : session * outcome unit :=
  match r with
  | inl e => (s, Err e)
  | inr c =>
      add_set (mkDs (s_next s) (s_nset s + 1) [] (fun _ => []) (fun _ => []) (dc_rmin c) (dc_rmax c) (dc_rmin c) (dc_rmax c)
                 (Z.of_nat (length (dc_obs c))) (dc_obs c) (dc_wic c) (ds_vals (dc_qdamp c))) (bump s)
  end.

(** models pdf.cc:1231-1243 selphaseForEachDataSet; find returns the first position *)
Fixpoint pos_of (a : addr) (l : list phase) : nat :=
  match l with [] => 0%nat | p :: r => if Nat.eqb (ph_addr p) a then 0%nat else S (pos_of a r) end.
Definition sel_each (a : addr) (s : session) : session :=
  mkS (s_next s) (s_phases s) (s_nphase s) (s_total s) (s_curphase s)
    (map (ds_selphase (pos_of a (s_phases s)) a) (s_sets s)) (s_nset s) (s_curset s) (s_vec s) (s_sca s).

(** what Phase::read_struct leaves in the phase when it succeeds *)
Record stru_content : Type := mkSt { st_types : list tyid; st_val : loc -> R }.

(** models stru.cc:128-146 and 152-170 read_struct, read_struct_string *)
Definition read_struct (r : err + stru_content) (s : session) : session * outcome unit :=
  match r with
  | inl e => (s, Err e)
  | inr c =>
      let p := mkPh (s_next s) (s_nphase s + 1) (st_types c) (st_val c) in
      let s1 := mkS (S (s_next s)) (s_phases s ++ [p]) (s_nphase s + 1) (s_total s + ph_natoms p) (s_curphase s) (s_sets s) (s_nset s) (s_curset s) (s_vec s) (s_sca s) in
      let s2 := sel_each (ph_addr p) s1 in
      setphase (s_nphase s2) s2
  end.

(** models pdffit.cc:79-101 reset; the references are left as they are *)
Definition reset (s : session) : session :=
  mkS (s_next s) [] 0 0 None [] 0 None (s_vec s) (s_sca s).

(** change the data set with address a *)
Definition on_set (a : addr) (f : dset -> dset) (s : session) : session :=
  mkS (s_next s) (s_phases s) (s_nphase s) (s_total s) (s_curphase s)
    (map (fun d => if Nat.eqb (ds_addr d) a then f d else d) (s_sets s)) (s_nset s) (s_curset s) (s_vec s) (s_sca s).

Definition ds_set_psel (l : list (option addr)) (d : dset) : dset :=
  mkDs (ds_addr d) (ds_iset d) l (ds_igni d) (ds_ignj d) (ds_rmin d) (ds_rmax d) (ds_rfmin d) (ds_rfmax d) (ds_bin d) (ds_obs d) (ds_wic d) (ds_val d).

(** pdffit.h:56 *)
Definition ALL : Z := -1.

(** models pdf.cc:1090-1112 PdfFit::selphase (psel in Python) *)
Definition psel (ip : Z) (s : session) : session * outcome unit :=
  match s_curset s with
  | None => (s, Err ErrUnassigned)
  | Some a =>
      match find_set s a with
      | None => (s, UB)
      | Some _ =>
          if ip =? ALL then (on_set a (ds_set_psel (map (fun p => Some (ph_addr p)) (s_phases s))) s, Ok tt)
          else match one_based ip (s_nphase s) with
               | None => (s, Err ErrUnassigned)
               | Some k =>
                   match nth_error (s_phases s) k with
                   | None => (s, UB)
                   | Some p => (on_set a (ds_selphase k (ph_addr p)) s, Ok tt)
                   end
               end
      end
  end.

(** models pdf.cc:1170-1193 pdesel; writing psel[ip-1] behind the end is UB *)
Definition pdesel (ip : Z) (s : session) : session * outcome unit :=
  match s_curset s with
  | None => (s, Err ErrUnassigned)
  | Some a =>
      match find_set s a with
      | None => (s, UB)
      | Some d =>
          if ip =? ALL then (on_set a (fun d => ds_set_psel (map (fun _ => None) (ds_psel d)) d) s, Ok tt)
          else match one_based ip (s_nphase s) with
               | None => (s, Err ErrUnassigned)
               | Some k =>
                   if (k <? length (ds_psel d))%nat then (on_set a (fun d => ds_set_psel (upd k None (ds_psel d)) d) s, Ok tt)
                   else (s, UB)
               end
      end
  end.

(** models pdf.cc:1206-1229 check_sel_args; gives the data set and the phase.
    The entry psel[ip-1] is used without a test for NULL. *)
Definition check_sel_args (ip : Z) (ij : ascii) (aidx1 : Z) (s : session) : outcome (dset * phase) :=
  match s_curset s with
  | None => Err ErrUnassigned
  | Some a =>
      match find_set s a with
      | None => UB
      | Some d =>
          match one_based ip (Z.of_nat (length (ds_psel d))) with
          | None => Err ErrUnassigned
          | Some k =>
              if negb (Ascii.eqb ij "i") && negb (Ascii.eqb ij "j") then Err ErrValue
              else match nth_error (ds_psel d) k with
                   | Some (Some pa) =>
                       match find_phase s pa with
                       | None => UB
                       | Some p => if (aidx1 <? 1) || (ph_natoms p <? aidx1) then Err ErrValue else Ok (d, p)
                       end
                   | _ => UB
                   end
          end
      end
  end.

(** set<int>::insert and erase *)
Definition set_ins (a : nat) (l : list nat) : list nat := if existsb (Nat.eqb a) l then l else a :: l.
Definition set_del (a : nat) (l : list nat) : list nat := filter (fun b => negb (Nat.eqb a b)) l.

(** replace the ignored set of phase pa on side ij *)
Definition ds_ignore (ij : ascii) (pa : addr) (f : list nat -> list nat) (d : dset) : dset :=
  let g old := fun a => if Nat.eqb a pa then f (old a) else old a in
  if Ascii.eqb ij "i"
  then mkDs (ds_addr d) (ds_iset d) (ds_psel d) (g (ds_igni d)) (ds_ignj d) (ds_rmin d) (ds_rmax d) (ds_rfmin d) (ds_rfmax d) (ds_bin d) (ds_obs d) (ds_wic d) (ds_val d)
  else mkDs (ds_addr d) (ds_iset d) (ds_psel d) (ds_igni d) (g (ds_ignj d)) (ds_rmin d) (ds_rmax d) (ds_rfmin d) (ds_rfmax d) (ds_bin d) (ds_obs d) (ds_wic d) (ds_val d).

Definition sel_op (sel : bool) (a : nat) (l : list nat) : list nat := if sel then set_del a l else set_ins a l.

Definition with_args (s : session) (ip : Z) (ij : ascii) (aidx1 : Z) (f : phase -> outcome (list nat -> list nat)) : session * outcome unit :=
  match check_sel_args ip ij aidx1 s with
  | Ok (d, p) =>
      match f p with
      | Ok g => (on_set (ds_addr d) (ds_ignore ij (ph_addr p) g) s, Ok tt)
      | Err e => (s, Err e) | UB => (s, UB) | NoFuel => (s, NoFuel)
      end
  | Err e => (s, Err e) | UB => (s, UB) | NoFuel => (s, NoFuel)
  end.

(** models pdf.cc:1245-1259 selectAtomType.  [look] stands for the lookup of the
    pattern in the table of the phase (ValueError when unknown); atom types are
    compared by address there, by symbol here. *)
Definition select_type (look : list ascii -> option tyid) (ip : Z) (ij : ascii) (smb : list ascii) (sel : bool) (s : session) : session * outcome unit :=
  with_args s ip ij 1 (fun p =>
    match look smb with
    | None => Err ErrValue
    | Some t => Ok (fun l => fold_left (fun l k => match nth_error (ph_types p) k with
                                          | Some u => if list_eq_dec ascii_dec t u then sel_op sel k l else l
                                          | None => l end) (seq 0 (length (ph_types p))) l)
    end).
(** models pdf.cc:1261-1270 selectAtomIndex *)
Definition select_index (ip : Z) (ij : ascii) (aidx1 : Z) (sel : bool) (s : session) : session * outcome unit :=
  with_args s ip ij aidx1 (fun _ => Ok (sel_op sel (Z.to_nat (aidx1 - 1)))).
(** models pdf.cc:1272-1279 selectAll *)
Definition select_all (ip : Z) (ij : ascii) (s : session) : session * outcome unit :=
  with_args s ip ij 1 (fun _ => Ok (fun _ => [])).
(** models pdf.cc:1281-1288 selectNone *)
Definition select_none (ip : Z) (ij : ascii) (s : session) : session * outcome unit :=
  with_args s ip ij 1 (fun p => Ok (fun l => fold_left (fun l k => set_ins k l) (seq 0 (length (ph_types p))) l)).

(** models pdf.cc:1640-1652 DataSet::range *)
Definition ds_range (rmin rmax : R) (d : dset) : option dset :=
  if Rle_dec (ds_rmin d) rmin then if Rle_dec rmin (ds_rmax d) then if Rle_dec rmax (ds_rmax d) then if Rlt_dec rmin rmax then
    Some (mkDs (ds_addr d) (ds_iset d) (ds_psel d) (ds_igni d) (ds_ignj d) (ds_rmin d) (ds_rmax d) rmin rmax (ds_bin d) (ds_obs d) (ds_wic d) (ds_val d))
  else None else None else None else None.

(** the loop pdf.cc:1625; an exception leaves the earlier sets changed *)
Fixpoint range_all (rmin rmax : R) (l : list dset) : list dset * outcome unit :=
  match l with
  | [] => ([], Ok tt)
  | d :: r => match ds_range rmin rmax d with
              | None => (l, Err ErrValue)
              | Some d' => let (r', o) := range_all rmin rmax r in (d' :: r', o)
              end
  end.
Definition set_sets (l : list dset) (s : session) : session :=
  mkS (s_next s) (s_phases s) (s_nphase s) (s_total s) (s_curphase s) l (s_nset s) (s_curset s) (s_vec s) (s_sca s).

(** models pdf.cc:1617-1638 PdfFit::range *)
Definition range (is : Z) (rmin rmax : R) (s : session) : session * outcome unit :=
  if Rle_dec rmax rmin then (s, Err ErrValue)
  else if is =? ALL then
    let (l, o) := range_all rmin rmax (firstn (Z.to_nat (s_nset s)) (s_sets s)) in
    (set_sets (l ++ skipn (Z.to_nat (s_nset s)) (s_sets s)) s, o)
  else match one_based is (s_nset s) with
       | None => (s, Err ErrValue)
       | Some k =>
           match nth_error (s_sets s) k with
           | None => (s, UB)
           | Some d => match ds_range rmin rmax d with
                       | None => (s, Err ErrValue)
                       | Some d' => (set_sets (upd k d' (s_sets s)) s, Ok tt)
                       end
           end
       end.

(** models pdf.cc:1196-1204 getphase *)
Definition getphase (ip : Z) (s : session) : outcome addr :=
  let ph := match one_based ip (s_nphase s) with
            | Some k => option_map ph_addr (nth_error (s_phases s) k)
            | None => s_curphase s end in
  match ph with
  | None => Err ErrUnassigned
  | Some a => if (ip <? 0) || (s_nphase s <? ip) then Err ErrUnassigned else Ok a
  end.

(** what Python holds for a variable: the address of one of the scalar references
    of the PdfFit object, or of an element of a reference vector *)
Inductive handle : Type := HSca (v : sname) | HVec (v : vname) (k : nat) (gen : nat).

(** models misc.cc:1564-1577 getRefVar; the int index arrives as unsigned *)
Definition get_ref (v : vname) (i : Z) (s : session) : outcome handle :=
  let e := s_vec s v in
  let n := Z.of_nat (length (v_elems e)) in
  if n =? 0 then Err ErrUnassigned
  else if (n <? u32 i) || (u32 i <? 1) then Err ErrValue
  else Ok (HVec v (Z.to_nat (u32 i - 1)) (v_gen e)).

(** the reference behind a handle; the handle of a vector whose storage has
    moved, or of an element that has been removed, is dangling *)
Definition ref_of (h : handle) (s : session) : outcome ptr :=
  match h with
  | HSca v => Ok (s_sca s v)
  | HVec v k g =>
      let e := s_vec s v in
      if Nat.eqb g (v_gen e) then match nth_error (v_elems e) k with Some p => Ok p | None => UB end else UB
  end.

Definition loc_ok (p : phase) (l : loc) : bool :=
  match l with
  | LLat j => (j <? 6)%nat
  | LAtom ia c => (ia <? length (ph_types p))%nat
  | LDscale | LQdamp | LQbroad => false
  | _ => true
  end.
Definition ds_loc_ok (l : loc) : bool := match l with LDscale | LQdamp | LQbroad => true | _ => false end.

(** reading and writing *a *)
Definition load (s : session) (a : addr) (l : loc) : outcome R :=
  match find_phase s a with
  | Some p => if loc_ok p l then Ok (ph_val p l) else UB
  | None => match find_set s a with
            | Some d => if ds_loc_ok l then Ok (ds_val d l) else UB
            | None => UB
            end
  end.
Definition upd_val (l : loc) (x : R) (f : loc -> R) : loc -> R := fun m => if loc_eq_dec m l then x else f m.
Definition store (a : addr) (l : loc) (x : R) (s : session) : session :=
  mkS (s_next s)
    (map (fun p => if Nat.eqb (ph_addr p) a then mkPh (ph_addr p) (ph_iphase p) (ph_types p) (upd_val l x (ph_val p)) else p) (s_phases s))
    (s_nphase s) (s_total s) (s_curphase s)
    (map (fun d => if Nat.eqb (ds_addr d) a then
            mkDs (ds_addr d) (ds_iset d) (ds_psel d) (ds_igni d) (ds_ignj d) (ds_rmin d) (ds_rmax d) (ds_rfmin d) (ds_rfmax d) (ds_bin d) (ds_obs d) (ds_wic d) (upd_val l x (ds_val d))
          else d) (s_sets s))
    (s_nset s) (s_curset s) (s_vec s) (s_sca s).

(** models misc.cc:808-832 getvar *)
Definition getvar (h : handle) (s : session) : outcome R :=
  obind (ref_of h s) (fun p => match p with None => Err ErrUnassigned | Some (a, l) => load s a l end).
(** models misc.cc:782-804 setvar *)
Definition setvar (h : handle) (x : R) (s : session) : session * outcome unit :=
  match ref_of h s with
  | Ok None => (s, Err ErrUnassigned)
  | Ok (Some (a, l)) => match load s a l with Ok _ => (store a l x s, Ok tt) | Err e => (s, Err e) | UB => (s, UB) | NoFuel => (s, NoFuel) end
  | Err e => (s, Err e) | UB => (s, UB) | NoFuel => (s, NoFuel)
  end.

(** the calls a user can make *)
Inductive op : Type :=
| OAlloc (qmax qdamp rmin rmax : R) (bin : Z)
| OReadData (r : err + data_content)
| OReadStruct (r : err + stru_content)
| OReset
| OSetphase (ip : Z) | OSetdata (is : Z) | OPsel (ip : Z) | OPdesel (ip : Z)
| OSelType (ip : Z) (ij : ascii) (smb : list ascii) (sel : bool)
| OSelIndex (ip : Z) (ij : ascii) (aidx1 : Z) (sel : bool)
| OSelAll (ip : Z) (ij : ascii) | OSelNone (ip : Z) (ij : ascii)
| ORange (is : Z) (rmin rmax : R)
| OSetvar (v : sname + vname * Z) (x : R).

(** pf.setvar(pf.x(i), value): take the reference and use it at once *)
Definition setvar_now (v : sname + vname * Z) (x : R) (s : session) : session * outcome unit :=
  match v with
  | inl n => setvar (HSca n) x s
  | inr (n, i) => match get_ref n i s with Ok h => setvar h x s | Err e => (s, Err e) | UB => (s, UB) | NoFuel => (s, NoFuel) end
  end.

Definition step (look : list ascii -> option tyid) (o : op) (s : session) : session * outcome unit :=
  match o with
  | OAlloc qmax qdamp rmin rmax bin => alloc qmax qdamp rmin rmax bin s
  | OReadData r => read_data r s
  | OReadStruct r => read_struct r s
  | OReset => (reset s, Ok tt)
  | OSetphase ip => setphase ip s
  | OSetdata is => setdata is s
  | OPsel ip => psel ip s
  | OPdesel ip => pdesel ip s
  | OSelType ip ij smb sel => select_type look ip ij smb sel s
  | OSelIndex ip ij a sel => select_index ip ij a sel s
  | OSelAll ip ij => select_all ip ij s
  | OSelNone ip ij => select_none ip ij s
  | ORange is a b => range is a b s
  | OSetvar v x => setvar_now v x s
  end.

(** a history; after UB nothing more can be said, so the run stops there *)
Fixpoint run (look : list ascii -> option tyid) (l : list op) (s : session) : outcome session :=
  match l with
  | [] => Ok s
  | o :: r => match step look o s with
              | (_, UB) => UB
              | (s', _) => run look r s'
              end
  end.
