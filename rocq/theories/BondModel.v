(** Model of the interatomic distances and angles of a phase (stru.cc:592-836) and of
    the standard deviations they carry (metric.cc:277-339).
    Doubles are reals; a value that is not a finite number is None. *)
From Coq Require Import Ascii String List Arith ZArith Reals Bool.
From Verif Require Import Base MathModel MetricModel SphereModel PdfModel ParserModel DataModel ElementTable ScatModel.
Import ListNotations.
Local Open Scope R_scope.

(** models metric.cc:277-298 Phase::dtensor *)
Definition dtensor (vec win dvec dwin : v3) : t33 := fun i j =>
  if (i =? j)%nat then dvec i * vec j + vec i * dvec j
  else
    let w := (3 - (i + j))%nat in
    let x := dvec i * vec j * m_cosd (win w) + vec i * dvec j * m_cosd (win w) + vec i * vec j * m_sind (win w) * rad * dwin w in
    if Rlt_dec x double_eps then 0 else x.

(** models metric.cc:326-339 Phase::dskalpro *)
Definition dskalpro (gten dgten : t33) (h k dh dk : v3) : R :=
  fold_left (fun s i => fold_left (fun s j =>
    s + (Rabs (dh i * k j * gten i j) + Rabs (h i * dk j * gten i j) + Rabs (h i * k j * dgten i j))) idx3 s) idx3 0.

(** a phase as the functions below see it: cell and atoms; dpos and the symbol of the
    atom_type of each atom, by index (a phase has one AtomType for each symbol,
    LocalPeriodicTable.cc:127-144); and the tensors gten and dgten that the last call
    of lattice() left (stru.cc:219, fit.cc:326 and 812) *)
Record bphase : Type := mkBp {
  bp_ph : cphase; bp_dpos : nat -> v3; bp_sym : nat -> text; bp_lat : lattice_t; bp_dgten : t33 }.

(** models stru.cc:627, 629 and 631, the values of one loop variable *)
Fixpoint loop_vals (fuel : nat) (x c : R) : outcome (list R) :=
  match fuel with
  | O => NoFuel
  | S f => if Rlt_dec x c then omap (cons x) (loop_vals f (x + c) c) else Ok []
  end.
(** all candidates, in the order of the three loops *)
Definition candidates (l0 l1 l2 : list R) : list v3 :=
  flat_map (fun x => flat_map (fun y => map (fun z (i : nat) => match i with O => x | S O => y | _ => z end) l2) l1) l0.
(** models stru.cc:633-638; the assignment to dsquare in line 637 has no effect, so
    mindsquare is the same for all candidates *)
Definition try_test (gten : t33) (mindsquare : R) (nearest test : v3) : v3 :=
  if Rlt_dec (skalpro gten test test) mindsquare then test else nearest.

Definition is_eq (x y : R) : bool := if Req_EM_T x y then true else false.
(** models stru.cc:604-643 Phase::make_nearest *)
Definition make_nearest (fuel : nat) (b : bphase) (xyz : v3) : outcome v3 :=
  let icc k := IZR (cp_icc (bp_ph b) k) in
  let win := cp_win (bp_ph b) in
  let gten := l_gten (bp_lat b) in
  let xyz : v3 := fun i => fmod (xyz i) (icc i) in
  if (is_eq (xyz 0%nat) 0 && is_eq (xyz 1%nat) 0 && is_eq (xyz 2%nat) 0)
     || (is_eq (win 0%nat) 90 && is_eq (win 1%nat) 90 && is_eq (win 2%nat) 90) then Ok xyz
  else
    let xyz : v3 := fun i => if Rlt_dec 0 (xyz i) then xyz i - icc i else xyz i in
    obind (loop_vals fuel (xyz 0%nat) (icc 0%nat)) (fun l0 =>
    obind (loop_vals fuel (xyz 1%nat) (icc 1%nat)) (fun l1 =>
    obind (loop_vals fuel (xyz 2%nat) (icc 2%nat)) (fun l2 =>
    Ok (fold_left (try_test gten (skalpro gten xyz xyz)) (candidates l0 l1 l2) xyz)))).

(** models PairDistance.h:21-40 *)
Record pair_dist : Type := mkPd { pd_dij : num; pd_ddij : R; pd_i : Z; pd_j : Z }.
Definition pd_lt (x y : pair_dist) : bool :=
  match pd_dij x, pd_dij y with Some a, Some b => if Rlt_dec a b then true else false | _, _ => false end.

(** ia < 1 || ia > natoms *)
Definition bad_number (b : bphase) (ia : Z) : bool := (ia <? 1)%Z || (Z.of_nat (length (cp_atoms (bp_ph b))) <? ia)%Z.
(** pos and dpos of atom[i] *)
Definition pos_of (b : bphase) (i : nat) : v3 := at_pos (nth i (cp_atoms (bp_ph b)) (mkAt (fun _ => 0) (fun _ => 0) 0 (fun _ => 0))).

(** models stru.cc:734-735 and 787, 790 *)
Definition dist_of (b : bphase) (d : v3) : num := nsqrt (skalpro (l_gten (bp_lat b)) d d).
Definition ddist_of (b : bphase) (d dd : v3) : R :=
  match dist_of b d with
  | Some dist => if Rlt_dec 0 dist then (1 / 2) / dist * dskalpro (l_gten (bp_lat b)) (bp_dgten b) d d dd dd else 0
  | None => 0
  end.

(** models stru.cc:711-744 Phase::bond_length_atoms *)
Definition bond_length_atoms (fuel : nat) (b : bphase) (ia ja : Z) : outcome pair_dist :=
  if bad_number b ia || bad_number b ja then Err ErrValue
  else
    let i := Z.to_nat (ia - 1) in let j := Z.to_nat (ja - 1) in
    let d : v3 := fun k => pos_of b i k - pos_of b j k in
    let dd : v3 := fun k => bp_dpos b i k + bp_dpos b j k in
    obind (make_nearest fuel b d) (fun d => Ok (mkPd (dist_of b d) (ddist_of b d dd) ia ja)).

(** acosd of MathUtils.h; NaN outside [-1, 1] *)
Definition nacosd (x : num) : num :=
  match x with
  | Some a => if Rlt_dec a (-1) then None else if Rlt_dec 1 a then None else Some (m_acosd a)
  | None => None
  end.
Definition nabs (x : num) : num := match x with Some a => Some (Rabs a) | None => None end.
Definition nsqrt' (x : num) : num := match x with Some a => nsqrt a | None => None end.

(** models stru.cc:679-693, the angle and its standard deviation *)
Definition angle_of (b : bphase) (x y dx dy : v3) : num * num :=
  let g := l_gten (bp_lat b) in let dg := bp_dgten b in
  let xx := nsqrt (skalpro g x x) in
  let yy := nsqrt (skalpro g y y) in
  let xy := skalpro g x y in
  let dxx := nmul (ndiv (Some (1 / 2)) xx) (Some (dskalpro g dg x x dx dx)) in
  let dyy := nmul (ndiv (Some (1 / 2)) yy) (Some (dskalpro g dg y y dy dy)) in
  let dxy := dskalpro g dg x y dx dy in
  let arg := ndiv (Some xy) (nmul xx yy) in
  let ang := nacosd arg in
  let darg := nadd (nadd (nmul (ndiv (Some 1) (nmul xx yy)) (Some dxy)) (nmul (ndiv arg xx) dxx)) (nmul (ndiv arg yy) dyy) in
  let dang :=
    if match arg with Some a => is_eq a 1 | None => false end then Some 0
    else nabs (nmul (ndiv (ndiv (Some 1) (nsqrt' (nsub (Some 1) (nmul arg arg)))) (Some rad)) darg) in
  (ang, dang).

(** models stru.cc:645-698 Phase::bond_angle *)
Definition bond_angle (fuel : nat) (b : bphase) (ia ja ka : Z) : outcome (num * num) :=
  if bad_number b ia || bad_number b ja || bad_number b ka then Err ErrValue
  else if (ia =? ja)%Z || (ia =? ka)%Z || (ja =? ka)%Z then Err ErrValue
  else
    let i := Z.to_nat (ia - 1) in let j := Z.to_nat (ja - 1) in let k := Z.to_nat (ka - 1) in
    let x : v3 := fun n => pos_of b j n - pos_of b i n in
    let y : v3 := fun n => pos_of b j n - pos_of b k n in
    let dx : v3 := fun n => bp_dpos b j n + bp_dpos b i n in
    let dy : v3 := fun n => bp_dpos b j n + bp_dpos b k n in
    obind (make_nearest fuel b x) (fun x =>
    obind (make_nearest fuel b y) (fun y => Ok (angle_of b x y dx dy))).

(** models stru.cc:809-836 Phase::selectAtomsOf; the set is a list in ascending order *)
Definition select_atoms (b : bphase) (symbol : text) : outcome (list nat) :=
  let all := seq 0 (length (cp_atoms (bp_ph b))) in
  if text_eqb (map to_up symbol) (chars "ALL") then Ok all
  else match pt_lookup elements symbol with
       | None => Err ErrValue
       | Some e => Ok (filter (fun i => text_eqb (bp_sym b i) (esym e)) all)
       end.

(** std::stable_sort *)
Fixpoint insert_pd (x : pair_dist) (l : list pair_dist) : list pair_dist :=
  match l with [] => [x] | y :: r => if pd_lt y x then y :: insert_pd x r else x :: l end.
Definition stable_sort (l : list pair_dist) : list pair_dist := fold_right insert_pd [] l.

(** models stru.cc:780-801, one pair of atoms and one lattice point *)
Definition one_bond (b : bphase) (bmin bmax : R) (i j : nat) (mno : Z * Z * Z) : list pair_dist :=
  let '(m, n, o) := mno in
  let mno k := match k with O => m | S O => n | _ => o end in
  let d : v3 := fun k => pos_of b i k - pos_of b j k - IZR (mno k) * IZR (cp_icc (bp_ph b) k) in
  let dd : v3 := fun k => bp_dpos b i k + bp_dpos b j k in
  match dist_of b d with
  | Some dist => if Rle_dec bmin dist then if Rle_dec dist bmax then
      [mkPd (Some dist) (ddist_of b d dd) (Z.of_nat i + 1) (Z.of_nat j + 1)] else [] else []
  | None => []
  end.

(** models stru.cc:757-807 Phase::bond_length_types *)
Definition bond_length_types (fuel : nat) (b : bphase) (symi symj : text) (bmin bmax : R) : outcome (list pair_dist) :=
  let p := bp_ph b in
  obind (select_atoms b symi) (fun isel =>
  obind (select_atoms b symj) (fun jsel =>
  let buffzone := circum_diameter (bp_lat b) (cp_atoms p) in
  let a0 k := cp_a0 p k * IZR (cp_icc p k) in
  let win := cp_win p in
  obind (points_in_sphere fuel (bmin - buffzone) (bmax + buffzone)
           (lp_make (a0 0%nat) (a0 1%nat) (a0 2%nat) (win 0%nat) (win 1%nat) (win 2%nat))) (fun pts =>
  Ok (stable_sort (flat_map (fun i => flat_map (fun j => flat_map (one_bond b bmin bmax i j) pts) jsel) isel))))).

(** models stru.cc:592-599, 702-709 and 747-755, the calls on the current phase *)
Definition on_current {A} (f : bphase -> outcome A) (c : option bphase) : outcome A :=
  match c with None => Err ErrUnassigned | Some b => f b end.
