(** Model of PointsInSphere (PointsInSphere.cc:73-200, PointsInSphere.h:76-121).
    Doubles are real numbers; conversion to int does not overflow here. *)
From Coq Require Import List ZArith Reals Bool.
From Verif Require Import Base MetricModel.
Import ListNotations.
Local Open Scope Z_scope.

(** int(floor(x)) and int(ceil(x)) *)
Definition zfloor (x : R) : Z := (up x - 1)%Z.
Definition zceil (x : R) : Z := - zfloor (- x)%R.

(** models PointsInSphere.h:107-113, constants set by init *)
Record sph_const : Type := mkSc {
  k_rmin2 : R; k_rmax2 : R; k_rmax : R; k_ar : R; k_b2r : R; k_c1r : R;
  k_dn0dm : R; k_do0dm : R; k_do0dn : R }.

(** models PointsInSphere.cc:100-113 init *)
Definition sph_init (rmin rmax : R) (l : latpar) : sph_const :=
  let sq x := if Rlt_dec x 0 then (- (x * x))%R else (x * x)%R in
  let b2r := (1 / (lp_b l * lp_sa l))%R in
  let c2r := (1 / (lp_c l * lp_sa l))%R in
  let ca2r := (- lp_ca l)%R in
  mkSc (sq rmin) (sq rmax) rmax (lp_ar l) b2r (1 / lp_c l)%R
    (lp_cgr l * lp_br l / lp_ar l)%R (lp_cbr l * lp_cr l / lp_ar l)%R (ca2r * c2r / b2r)%R.

(** models PointsInSphere.h:94-95 and 114-120, the loop variables.  The half
    spans are only used where they are computed and are not kept. *)
Record sph : Type := mkSp {
  s_m : Z; s_n : Z; s_o : Z; s_him : Z; s_hin : Z; s_hio : Z; s_outo : Z;
  s_n0 : R; s_o0p : R; s_o0l : R; s_excl : R; s_rp2 : R }.

(** models PointsInSphere.h:89-92 *)
Definition finished (s : sph) : bool := negb (s_m s <? s_him s).

(** x > 0 ? sqrt(x) : 0 *)
Definition sqrt_pos (x : R) : R := if Rlt_dec 0 x then sqrt x else 0%R.

(** models PointsInSphere.cc:178-192 next_m *)
Definition next_m (k : sph_const) (s : sph) : sph :=
  let m := s_m s + 1 in
  let s := mkSp m (s_n s) (s_o s) (s_him s) (s_hin s) (s_hio s) (s_outo s) (s_n0 s) (s_o0p s) (s_o0l s) (s_excl s) (s_rp2 s) in
  if finished s then s
  else
    let n0 := (IZR m * k_dn0dm k)%R in
    let o0p := (IZR m * k_do0dm k)%R in
    let rp2 := (k_rmax2 k - (IZR m / k_ar k) * (IZR m / k_ar k))%R in
    let half := (sqrt_pos rp2 * k_b2r k)%R in
    mkSp m (zfloor (n0 - half)) (s_o s) (s_him s) (zceil (n0 + half)) (s_hio s) (s_outo s) n0 o0p (s_o0l s) (s_excl s) rp2.

(** models PointsInSphere.cc:156-172, the line n of the current plane *)
Definition set_line (k : sph_const) (s : sph) (n : Z) : sph :=
  let dn := (IZR n - s_n0 s)%R in
  let o0 := (s_o0p s + dn * k_do0dn k)%R in
  let rl2 := (s_rp2 s - (dn / k_b2r k) * (dn / k_b2r k))%R in
  let half := (sqrt_pos rl2 * k_c1r k)%R in
  let excl := (sqrt_pos (k_rmin2 k + (rl2 - k_rmax2 k)) * k_c1r k)%R in
  let outo := zceil (o0 + half) in
  let hole := zceil (o0 - excl) in
  let hio :=
    if Req_EM_T excl 0 then outo
    else if Rlt_dec (Rabs (IZR hole - o0)) excl then hole else outo in
  mkSp (s_m s) n (zfloor (o0 - half)) (s_him s) (s_hin s) hio outo (s_n0 s) (s_o0p s) o0 excl (s_rp2 s).

(** models PointsInSphere.cc:150-176 next_n; the fuel bounds the iterations of
    the do-while loop *)
Fixpoint next_n (fuel : nat) (k : sph_const) (s : sph) : outcome sph :=
  match fuel with
  | O => NoFuel
  | S f =>
      let n := s_n s + 1 in
      if n <? s_hin s then Ok (set_line k s n)
      else
        let s := next_m k (mkSp (s_m s) n (s_o s) (s_him s) (s_hin s) (s_hio s) (s_outo s) (s_n0 s) (s_o0p s) (s_o0l s) (s_excl s) (s_rp2 s)) in
        if finished s then Ok s else next_n f k s
  end.

(** models PointsInSphere.cc:130-148 next_o; [continue] goes to the loop test *)
Fixpoint next_o (fuel : nat) (k : sph_const) (s : sph) : outcome sph :=
  match fuel with
  | O => NoFuel
  | S f =>
      let o := s_o s + 1 in
      let s := mkSp (s_m s) (s_n s) o (s_him s) (s_hin s) (s_hio s) (s_outo s) (s_n0 s) (s_o0p s) (s_o0l s) (s_excl s) (s_rp2 s) in
      if o <? s_hio s then Ok s
      else if negb (s_hio s =? s_outo s) then
        let s := mkSp (s_m s) (s_n s) (zceil (s_o0l s + s_excl s) - 1) (s_him s) (s_hin s) (s_outo s) (s_outo s) (s_n0 s) (s_o0p s) (s_o0l s) (s_excl s) (s_rp2 s) in
        if finished s then Ok s else next_o f k s
      else
        obind (next_n f k s) (fun s => if finished s then Ok s else next_o f k s)
  end.

(** models PointsInSphere.cc:115-126, rewind up to the call of next_o; the
    plane radius, not set there, is not read before next_m sets it *)
Definition sph_start (k : sph_const) : sph :=
  let him := zceil (k_rmax k * k_ar k) in
  mkSp (- him) 0 0 him 0 0 0 0%R 0%R 0%R 0%R 0%R.

(** for (sph.rewind(); !sph.finished(); sph.next()): the points (m, n, o) seen *)
Fixpoint visit (fuel : nat) (k : sph_const) (s : sph) : outcome (list (Z * Z * Z)) :=
  match fuel with
  | O => NoFuel
  | S f => obind (next_o f k s) (fun s =>
             if finished s then Ok [] else omap (cons (s_m s, s_n s, s_o s)) (visit f k s))
  end.

Definition points_in_sphere (fuel : nat) (rmin rmax : R) (l : latpar) : outcome (list (Z * Z * Z)) :=
  let k := sph_init rmin rmax l in visit fuel k (sph_start k).
