(** Cases for relisted samples. *)
From Coq Require Import List Arith ZArith Reals Bool Lia Lra Permutation.
From Verif Require Import Base RSum MathModel MetricModel MetricSpec PdfModel PdfSpec PdfProof PdfGeo PdfSum PdfPeak PdfPhase PdfTotal PdfEx PdfFinal RelSpec RelProof RelFinal RelList RelTheory.
Import ListNotations.
Local Open Scope R_scope.

(** three atoms, occupancies adding up to 2 *)
Definition tri (x ox y oy z oz : R) : cphase := cub [xatom x (1 / 2) ox; xatom y (1 / 2) oy; xatom z (1 / 2) oz].
Lemma tri_no x ox y oy z oz i : atom_no (tri x ox y oy z oz) i = match i with O => xatom x (1 / 2) ox | 1%nat => xatom y (1 / 2) oy | 2%nat => xatom z (1 / 2) oz | _ => no_atom end.
Proof. destruct i as [|[|[|[|i]]]]; reflexivity. Qed.
Lemma tri_occ x ox y oy z oz : occ_sum (tri x ox y oy z oz) = ox + oy + oz. Proof. unfold occ_sum. cbn. lra. Qed.
Lemma tri_mean x ox y oy z oz : ox + oy + oz = 2 -> mean_sf xdata (tri x ox y oy z oz) = 1.
Proof. intros H. unfold mean_sf. rewrite tri_occ, H. cbn. replace oz with (2 - ox - oy) by lra. field. Qed.
Lemma tri_sane x ox y oy z oz : ox + oy + oz = 2 -> sane_phase xdata (tri x ox y oy z oz).
Proof.
  intros H. split. apply cub_cell. split. apply cub_tiny. split. intros; cbn; lia. split. rewrite tri_occ; lra. split. rewrite tri_mean; lra.
  split. cbn. lra. split; [|cbn; lra]. intros i j h Hi Hj. cbn in Hi, Hj. rewrite !tri_no. destruct i as [|[|[|i]]], j as [|[|[|j]]]; try lia; apply cub_msd_nn; lra.
Qed.
Lemma tri_one x ox y oy z oz : 0 <= x <= 1 -> 0 <= y <= 1 -> 0 <= z <= 1 -> one_cell (tri x ox y oy z oz).
Proof.
  intros X Y Z i j k Hi Hj _. cbn in Hi, Hj. rewrite !tri_no. destruct i as [|[|[|i]]], j as [|[|[|j]]]; try lia; cbn; apply Rabs_le; lra.
Qed.
Lemma tri_complete x ox y oy z oz de gi gj : 0 <= x <= 1 -> 0 <= y <= 1 -> 0 <= z <= 1 -> complete (mkEnt (tri x ox y oy z oz) de gi gj).
Proof. intros. split. apply tri_one; auto. cbn. lra. Qed.
Lemma two_complete x y de gi gj : 0 <= x <= 1 -> 0 <= y <= 1 -> complete (mkEnt (two x y) de gi gj).
Proof. intros. split. apply two_one. apply Rabs_le; lra. cbn. lra. Qed.
Lemma two_good x y de gi gj : phase_lattice (two x y) = Ok de -> good_entry xdata (mkEnt (two x y) de gi gj).
Proof. intros L. split. exact L. apply two_sane. Qed.
Lemma tri_good x ox y oy z oz de gi gj : ox + oy + oz = 2 -> phase_lattice (tri x ox y oy z oz) = Ok de -> good_entry xdata (mkEnt (tri x ox y oy z oz) de gi gj).
Proof. intros H L. split. exact L. apply tri_sane; auto. Qed.

(** the first atom is ignored; the atoms change places *)
Definition only (k i : nat) : bool := (i =? k)%nat.
Lemma ex_reordered : exists de de', let e := mkEnt (two (9 / 10) (1 / 10)) de (only 0) (only 0) in let e' := mkEnt (two (1 / 10) (9 / 10)) de' (only 1) (only 1) in
  good_entry xdata e /\ good_entry xdata e' /\ complete e /\ complete e' /\ reordered e e'.
Proof.
  destruct (cub_lat (cp_atoms (two (9 / 10) (1 / 10)))) as (de & L), (cub_lat (cp_atoms (two (1 / 10) (9 / 10)))) as (de' & L'). exists de, de'. cbv zeta.
  split. apply two_good; auto. split. apply two_good; auto. split. apply two_complete; lra. split. apply two_complete; lra. split. reflexivity. apply perm_swap.
Qed.
Lemma ex_shifted : exists de de', let e := ent (two (6 / 10) (1 / 10)) de in let e' := ent (two (9 / 10) (4 / 10)) de' in
  good_entry xdata e /\ good_entry xdata e' /\ complete e /\ complete e' /\ shifted e e' (fun _ => 3 / 10).
Proof.
  destruct (cub_lat (cp_atoms (two (6 / 10) (1 / 10)))) as (de & L), (cub_lat (cp_atoms (two (9 / 10) (4 / 10)))) as (de' & L'). exists de, de'. cbv zeta.
  split. apply two_good; auto. split. apply two_good; auto. split. apply two_complete; lra. split. apply two_complete; lra. split; [|auto].
  exists (cp_atoms (two (9 / 10) (4 / 10))). split. reflexivity. repeat constructor; intros; cbn; lra.
Qed.
(** the second atom listed as two halves *)
Definition half_two : cphase := with_atoms (two (9 / 10) (1 / 10)) ([xatom (9 / 10) (1 / 2) 1] ++ with_occ (xatom (1 / 10) (1 / 2) 1) (1 / 2) :: with_occ (xatom (1 / 10) (1 / 2) 1) (1 - 1 / 2) :: []).
Lemma half_tri : half_two = tri (9 / 10) 1 (1 / 10) (1 / 2) (1 / 10) (1 - 1 / 2). Proof. reflexivity. Qed.
Lemma ex_split : exists de de', let e := ent (two (9 / 10) (1 / 10)) de in let e' := ent half_two de' in
  good_entry xdata e /\ good_entry xdata e' /\ complete e /\ complete e' /\ site_split e e'.
Proof.
  destruct (cub_lat (cp_atoms (two (9 / 10) (1 / 10)))) as (de & L), (cub_lat (cp_atoms half_two)) as (de' & L'). exists de, de'. cbv zeta.
  split. apply two_good; auto. split. unfold ent. rewrite half_tri. apply tri_good; auto. lra. split. apply two_complete; lra. split. unfold ent. rewrite half_tri. apply tri_complete; lra.
  split. intros i _; auto. split. intros i _; auto. exists [xatom (9 / 10) (1 / 2) 1], (xatom (1 / 10) (1 / 2) 1), (1 / 2), []. split; reflexivity.
Qed.
(** an empty site between the two atoms *)
Lemma ex_dropped : exists de de', let e := ent (tri (9 / 10) 1 (1 / 2) 0 (1 / 10) 1) de in let e' := ent (two (9 / 10) (1 / 10)) de' in
  good_entry xdata e /\ good_entry xdata e' /\ complete e /\ complete e' /\ empty_dropped e e'.
Proof.
  destruct (cub_lat (cp_atoms (tri (9 / 10) 1 (1 / 2) 0 (1 / 10) 1))) as (de & L), (cub_lat (cp_atoms (two (9 / 10) (1 / 10)))) as (de' & L'). exists de, de'. cbv zeta.
  split. apply tri_good; auto. lra. split. apply two_good; auto. split. apply tri_complete; lra. split. apply two_complete; lra.
  split. intros i _; auto. split. intros i _; auto. exists [xatom (9 / 10) (1 / 2) 1], (xatom (1 / 2) (1 / 2) 0), [xatom (1 / 10) (1 / 2) 1]. split. reflexivity. split; reflexivity.
Qed.
(** moved by 2/10 along the diagonal, which takes the first atom into the next cell;
    coordinates beyond 1 are wrapped *)
Definition moved_two : cphase := two (11 / 10) (3 / 10).
Lemma ex_sample : same_sample (two (9 / 10) (1 / 10)) moved_two /\ plain (two (9 / 10) (1 / 10)) /\ plain moved_two /\ sane_phase xdata (two (9 / 10) (1 / 10)) /\ sane_phase xdata moved_two /\
  same_sample (two (9 / 10) (1 / 10)) (two (1 / 10) (3 / 10)).
Proof.
  assert (P : forall x y, 0 <= x -> 0 <= y -> plain (two x y)).
  { intros x y X Y. split. reflexivity. split. cbn; lra. split. intros i k Hi _. cbn in Hi. rewrite two_no. destruct i as [|[|i]]; cbn; try lra; lia. split. apply cub_lat. split. apply cub_cell. split. intros; cbn; lia. cbn; lra. }
  assert (S : forall x y z1 z2 : R, (exists a : Z, x = 9 / 10 + 2 / 10 + IZR a * 1) -> (exists b : Z, y = 1 / 10 + 2 / 10 + IZR b * 1) -> same_sample (two (9 / 10) (1 / 10)) (two x y)).
  { intros x y z1 z2 (a & A) (b & B). exists (fun i => i), (fun _ => 2 / 10). split; [reflexivity|]. split.
    - intros i Hi. cbn in Hi. split. cbn; lia. rewrite !two_no. destruct i as [|[|i]]; [| |lia]; repeat split; intros k _; cbn; eauto.
    - intros i Hi. cbn in Hi. destruct i as [|[|i]]; [| |lia]; cbn; lra. }
  split. apply (S _ _ 0 0). exists 0%Z; lra. exists 0%Z; lra. split. apply P; lra. split. apply P; lra. split. apply two_sane. split. apply two_sane. apply (S _ _ 0 0). exists (-1)%Z; lra. exists 0%Z; lra.
Qed.
Lemma ex_everything : everything (mkCset xdata [Some (none, none)]).
Proof. intros gi gj i [E|[]]. injection E as <- <-. auto. Qed.

(** splitting an atom when another one is ignored *)
Lemma xvalue e : good_entry xdata e -> exists W v f0 t, pair_list xdata e W /\ phase_pdf xdata e W 2 v /\
  (forall fuel, (f0 <= fuel)%nat -> determine fuel xdata [Some e] = Ok (2%Z, 3%Z, t)) /\ el t 2 = Some (cp_pscale (en_ph e) * v).
Proof.
  intros GE. destruct (determine_ok xdata [Some e] xgrid xoff xfilter) as (Ws & f0 & V & out & P & T & O1 & _ & LO & D).
  { intros x [<-|[]]. exact GE. }
  cbn [selected_entries] in P, T. inversion P as [|? W ? ? [P1 P2] P3]; subst. inversion P3; subst. rewrite xi3, xi4 in *.
  destruct (T 2%Z ltac:(lia)) as (v & z & PV & Z & EV). cbn [total_is] in Z. subst z.
  exists W, v, f0, (repeat (Some 0) (Z.to_nat 2) ++ map Some out). split; auto. split; auto. split.
  - assert (I3 : idx xdata (cd_rfmin xdata) = 2%Z) by (change (cd_rfmin xdata) with 3; rewrite <- xlo; exact xi3). assert (I4 : idx xdata (cd_rfmax xdata) = 3%Z) by (change (cd_rfmax xdata) with 4; rewrite <- xhi; exact xi4). rewrite I3, I4 in D. auto.
  - rewrite O1 by (cbn; lra). change (zloop 2 3) with [2; 3]%Z. unfold el. change (Z.to_nat 2) with 2%nat. cbn [repeat app map nth]. f_equal. rewrite EV. cbn [xdata cd_dscale]. ring.
Qed.
Lemma split_ignored : exists d e e' f0 t t', good_grid d /\ off_origin d /\ good_filter d /\ good_entry d e /\ good_entry d e' /\ complete e /\ complete e' /\
  (exists l1 a o l2, cp_atoms (en_ph e) = l1 ++ a :: l2 /\ en_ph e' = with_atoms (en_ph e) (l1 ++ with_occ a o :: with_occ a (at_occ a - o) :: l2) /\ 0 < o < at_occ a) /\
  (forall i, (i < natoms (en_ph e'))%nat -> en_igni e' i = en_igni e i /\ en_ignj e' i = en_ignj e i) /\
  (forall fuel, (f0 <= fuel)%nat -> determine fuel d [Some e] = Ok (2%Z, 3%Z, t) /\ determine fuel d [Some e'] = Ok (2%Z, 3%Z, t')) /\ el t 2 <> el t' 2.
Proof.
  destruct (cub_lat (cp_atoms (two (9 / 10) (1 / 10)))) as (de & L), (cub_lat (cp_atoms half_two)) as (de' & L').
  set (e := mkEnt (two (9 / 10) (1 / 10)) de (only 0) (only 0)). set (e' := mkEnt half_two de' (only 0) (only 0)).
  assert (GE : good_entry xdata e) by (apply two_good; auto).
  assert (GE' : good_entry xdata e') by (unfold e'; rewrite half_tri; apply tri_good; auto; lra).
  assert (C : complete e) by (apply two_complete; lra). assert (C' : complete e') by (unfold e'; rewrite half_tri; apply tri_complete; lra).
  destruct (xvalue e GE) as (W & v & f0 & t & PL & PV & D & E), (xvalue e' GE') as (W' & v' & f0' & t' & PL' & PV' & D' & E').
  exists xdata, e, e', (Nat.max f0 f0'), t, t'. split. apply xgrid. split. apply xoff. split. apply xfilter. split; auto. split; auto. split; auto. split; auto. split.
  { exists [xatom (9 / 10) (1 / 2) 1], (xatom (1 / 10) (1 / 2) 1), (1 / 2), []. split. reflexivity. split. reflexivity. cbn. lra. }
  split; [auto|]. split. { intros fuel Hf. split. apply D; lia. apply D'; lia. }
  assert (X : v' = v + envelope xdata (en_ph e) (grid xdata 2) * (4 * PI * grid xdata 2 * density (en_ph e) * (counted_share xdata (en_ph e) (only 0) (only 0) - counted_share xdata half_two (only 0) (only 0)))).
  { destruct (split_relisted (ent (two (9 / 10) (1 / 10)) de) (ent half_two de')) as (m & w & (_ & M & O) & _).
    { split. intros i _; auto. split. intros i _; auto. exists [xatom (9 / 10) (1 / 2) 1], (xatom (1 / 10) (1 / 2) 1), (1 / 2), []. split; reflexivity. }
    apply (pdf_share xdata e (cp_atoms half_two) de' (only 0) (only 0) (fun x => if (x <=? 1)%nat then x else (x - 1)%nat) no_v 2%Z) with (W := W) (W' := W'); auto.
    - intros x Hx. cbn in Hx. destruct x as [|[|[|x]]]; [| | |lia]; split; cbn; try lia; repeat split; intros k _; exists 0%Z; cbn; unfold no_v; ring.
    - intros i Hi. cbn in Hi. destruct i as [|[|i]]; [| |lia]; cbn; lra.
    - intros x Hx. cbn in Hx. destruct x as [|[|[|x]]]; [| | |lia]; split; reflexivity. }
  assert (GR : grid xdata 2 = 3) by (unfold grid; cbn; lra). rewrite GR in X.
  assert (EN : envelope xdata (en_ph e) 3 = 1). { unfold envelope. cbn. destruct (Rlt_dec 0 0); lra. } rewrite EN in X.
  assert (S1 : counted_share xdata (en_ph e) (only 0) (only 0) = 1 / 4).
  { unfold counted_share. cbn [e en_ph]. change (natoms (two (9 / 10) (1 / 10))) with 2%nat. cbn [rsum]. rewrite !two_weight by lia. cbn. lra. }
  assert (S2 : counted_share xdata half_two (only 0) (only 0) = 4 / 9).
  { rewrite half_tri. assert (TW : forall i, (i < 3)%nat -> weight_no xdata (tri (9 / 10) 1 (1 / 10) (1 / 2) (1 / 10) (1 - 1 / 2)) i = 1).
    { intros i Hi. unfold weight_no. rewrite tri_mean by lra. rewrite tri_no. destruct i as [|[|[|i]]]; cbn; try lra; lia. }
    unfold counted_share. change (natoms (tri (9 / 10) 1 (1 / 10) (1 / 2) (1 / 10) (1 - 1 / 2))) with 3%nat. cbn [rsum]. rewrite !TW by lia. cbn. lra. }
  assert (DE : density (en_ph e) = 2 / 1000). { unfold density. cbn [e en_ph]. rewrite two_occ. unfold two. rewrite cub_det. replace 1000000 with (1000 * 1000) by ring. rewrite sqrt_square by lra. cbn. lra. }
  rewrite S1, S2, DE in X. rewrite E, E'. cbn [e e' en_ph two cub half_two with_atoms cp_pscale]. intros Q. injection Q as Q. pose proof PI_RGT_0. lra.
Qed.
(** two phases listed the other way round *)
Definition two_set (l : list (option ((nat -> bool) * (nat -> bool)))) : cset := mkCset xdata l.
Lemma ex_order : let ph := [two (9 / 10) (1 / 10); two (6 / 10) (1 / 10)] in let ph' := [two (6 / 10) (1 / 10); two (9 / 10) (1 / 10)] in
  let sets := [two_set [Some (only 0, only 0); Some (none, none)]] in let sets' := [two_set [Some (none, none); Some (only 0, only 0)]] in
  Forall calculable ph /\ Forall calculable ph' /\
  Forall2 (fun s s' => cs_data s' = cs_data s /\ Permutation (combine ph (cs_sel s)) (combine ph' (cs_sel s'))) sets sets' /\
  forall s, In s sets -> good_grid (cs_data s) /\ off_origin (cs_data s) /\ good_filter (cs_data s) /\ forall p, In p ph -> sane_phase (cs_data s) p.
Proof.
  assert (P : forall x y, calculable (two x y)). { intros x y. split. apply cub_lat. split. apply cub_cell. split. intros; cbn; lia. cbn; lra. }
  cbv zeta. split. do 2 (constructor; [apply P|]); constructor. split. do 2 (constructor; [apply P|]); constructor. split. constructor; [split; [reflexivity|apply perm_swap]|constructor].
  intros s [<-|[]]. split. apply xgrid. split. apply xoff. split. apply xfilter. intros p [<-|[<-|[]]]; apply two_sane.
Qed.
Lemma ex_phases2 : exists de de', let e := ent (two (9 / 10) (1 / 10)) de in let e' := ent (two (6 / 10) (1 / 10)) de' in
  ready xdata [Some e; None; Some e'] /\ Permutation [Some e; None; Some e'] [Some e'; Some e; None].
Proof.
  destruct (cub_lat (cp_atoms (two (9 / 10) (1 / 10)))) as (de & L), (cub_lat (cp_atoms (two (6 / 10) (1 / 10)))) as (de' & L'). exists de, de'. cbv zeta. split.
  intros x [<-|[<-|[]]]; apply two_good; auto. apply (Permutation_app_comm [Some _; None] [Some _]).
Qed.
