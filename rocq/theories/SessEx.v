(** Concrete sessions used as examples and counterexamples. *)
From Coq Require Import List ZArith Reals Ascii Bool Lia Lra.
From Verif Require Import Base SessModel SessSpec SessProof SessProof2 SessProof3.
Import ListNotations.
Local Open Scope Z_scope.

Definition Ni : tyid := ["N"; "I"]%char.
Definition Ox : tyid := ["O"]%char.
Definition ex_look (smb : list ascii) : option tyid :=
  if list_eq_dec ascii_dec smb Ni then Some Ni else if list_eq_dec ascii_dec smb Ox then Some Ox else None.
Definition ex_stru (x : R) (l : list tyid) : err + stru_content := inr (mkSt l (fun _ => x)).
Definition ex_data (rmax : R) : err + data_content := inr (mkDc 0 rmax 0 [0; 1]%R [1; 1]%R).

(** two phases, two data sets *)
Definition ex_ops : list op :=
  [OReadStruct (ex_stru 1 [Ni; Ox; Ni]); OReadData (ex_data 10); OReadStruct (ex_stru 2 [Ox]); OReadData (ex_data 5);
   OSetphase 7; OSetdata 1; OSelType 1 "i" Ni false; OSelIndex 1 "i" 1 true; OSetphase 1].

Definition st_of (l : list op) : session := match run ex_look l init with Ok s => s | _ => init end.
Lemma st_reach l : match run ex_look l init with Ok _ => True | _ => False end -> reachable ex_look l (st_of l).
Proof. unfold reachable, st_of. destruct (run ex_look l init); tauto. Qed.

Lemma ex_run : exists s, reachable ex_look ex_ops s /\ length (s_phases s) = 2%nat /\ length (s_sets s) = 2%nat /\
  s_curphase s = Some 0%nat /\ s_curset s = Some 1%nat /\ s_total s = 4 /\
  map ph_addr (s_phases s) = [0; 2]%nat /\ map ds_addr (s_sets s) = [1; 3]%nat /\
  map ds_rmax (s_sets s) = [10%R; 5%R] /\ map ds_rmin (s_sets s) = [0%R; 0%R] /\ map ph_types (s_phases s) = [[Ni; Ox; Ni]; [Ox]] /\
  map ds_rfmax (s_sets s) = [10%R; 5%R] /\ map (fun d => ds_igni d 0%nat) (s_sets s) = [[2%nat]; []].
Proof. exists (st_of ex_ops). split. apply st_reach. exact I. repeat split; reflexivity. Qed.

Lemma two_of {A B} (f : A -> B) l x y : map f l = [x; y] -> exists a b, l = [a; b] /\ f a = x /\ f b = y.
Proof. destruct l as [|a [|b [|c l]]]; try discriminate. intros H. inversion H. eauto 6. Qed.

(** rejected pdfrange(ALL, ..) that changes the first data set *)
Lemma range_all_changes : exists s s' e, reachable ex_look ex_ops s /\ step ex_look (ORange ALL 0 8) s = (s', Err e) /\ s' <> s /\
  map ds_rfmax (s_sets s) = [10; 5]%R /\ map ds_rfmax (s_sets s') = [8; 5]%R.
Proof.
  destruct ex_run as (s & R & L1 & L2 & _ & _ & _ & _ & _ & M1 & M2 & _ & M3 & _). pose proof (reach_inv _ _ _ R) as I.
  destruct (two_of _ _ _ _ M1) as (d1 & d2 & E & X1 & X2). rewrite E in *. cbn in M2, M3. injection M2 as Y1 Y2. injection M3 as Z1 Z2.
  exists s. cbn [step]. unfold range. destruct (Rle_dec 8 0); [lra|]. change (ALL =? ALL) with true. cbn iota.
  pose proof (i_ns s (proj1 I)) as NS. rewrite E in NS. cbn in NS. rewrite NS, E. change (Z.to_nat 2) with 2%nat. cbn [firstn skipn].
  cbn [range_all].
  destruct (ds_range_some 0 8 d1) as (e & E1 & S1 & S2 & S3); [lra|split; lra|]. rewrite E1.
  rewrite (ds_range_none 0 8 d2); [|lra|intros [_ K]; rewrite X2 in K; lra].
  eexists. eexists. split; [exact R|]. split; [reflexivity|]. split; [|cbn; split; congruence].
  intros F. apply (f_equal s_sets) in F. cbn in F. rewrite E in F. injection F as F. rewrite <- F in Z1. lra.
Qed.

(** first data set and phase of a session *)
Definition d0 (s : session) : dset := hd (mkDs 0%nat 0 [] (fun _ => []) (fun _ => []) 0 0 0 0 0 [] [] (fun _ => 0%R)) (s_sets s).
Definition p0 (s : session) : phase := hd (mkPh 0%nat 0 [] (fun _ => 0%R)) (s_phases s).
Lemma in_hd {A} (x : A) l : (length l =? 0)%nat = false -> In (hd x l) l.
Proof. destruct l; cbn. discriminate. auto. Qed.

(** selection call on a deselected phase *)
Lemma deselected_ub : exists s d, reachable ex_look (ex_ops ++ [OPdesel 1]) s /\ cur_set s d /\ 1 <= 1 <= Z.of_nat (length (s_phases s)) /\
  snd (step ex_look (OSelAll 1 "i") s) = UB /\ run ex_look (ex_ops ++ [OPdesel 1; OSelAll 1 "i"]) init = UB.
Proof.
  exists (st_of (ex_ops ++ [OPdesel 1])), (d0 (st_of (ex_ops ++ [OPdesel 1]))). split. apply st_reach. exact I. split. split. apply in_hd; reflexivity. reflexivity.
  assert (L : length (s_phases (st_of (ex_ops ++ [OPdesel 1]))) = 2%nat) by reflexivity. rewrite L. split. lia. split; reflexivity.
Qed.

(** references after reset, and references kept while another structure is read *)
Lemma reset_dangling : exists s h, reachable ex_look (ex_ops ++ [OReset]) s /\ s_phases s = [] /\ get_ref Vlat 1 s = Ok h /\ getvar h s = UB /\ getvar (HSca Spscale) s = UB.
Proof. exists (st_of (ex_ops ++ [OReset])). eexists. split. apply st_reach. exact I. split. reflexivity. split. reflexivity. split; reflexivity. Qed.
Lemma held_dangling : exists s h s', reachable ex_look [OReadStruct (ex_stru 1 [Ni])] s /\ get_ref (Vatom Ax) 1 s = Ok h /\ getvar h s = Ok 1%R /\
  step ex_look (OReadStruct (ex_stru 2 [Ni; Ox])) s = (s', Ok tt) /\ getvar h s' = UB.
Proof. exists (st_of [OReadStruct (ex_stru 1 [Ni])]). eexists. eexists. split. apply st_reach. exact I. split. reflexivity. split. reflexivity. split; reflexivity. Qed.
Lemma held_other_phase : exists s h s', reachable ex_look [OReadStruct (ex_stru 1 [Ni; Ox])] s /\ get_ref (Vatom Ax) 1 s = Ok h /\ getvar h s = Ok 1%R /\
  step ex_look (OReadStruct (ex_stru 2 [Ni])) s = (s', Ok tt) /\ getvar h s' = Ok 2%R /\ load s' 0%nat (LAtom 0 Ax) = Ok 1%R.
Proof. exists (st_of [OReadStruct (ex_stru 1 [Ni; Ox])]). eexists. eexists. split. apply st_reach. exact I. split. reflexivity. split. reflexivity. split. reflexivity. split; reflexivity. Qed.

Lemma ex_rejected : exists s e, reachable ex_look ex_ops s /\ step ex_look (OSetphase 3) s = (s, Err e).
Proof.
  exists (st_of ex_ops). eexists. split. apply st_reach. exact I. cbn [step]. unfold setphase.
  assert (N : s_nphase (st_of ex_ops) = 2) by reflexivity. rewrite N. reflexivity.
Qed.
Lemma ex_ignored : exists s d p, reachable ex_look ex_ops s /\ In d (s_sets s) /\ In p (s_phases s) /\
  ignored d p "i" 2 /\ ~ ignored d p "i" 0 /\ ~ ignored d p "j" 2 /\ ~ ignored d p "i" 1.
Proof.
  exists (st_of ex_ops), (d0 (st_of ex_ops)), (p0 (st_of ex_ops)). split. apply st_reach. exact I. split. apply in_hd; reflexivity. split. apply in_hd; reflexivity.
  assert (E1 : ds_igni (d0 (st_of ex_ops)) (ph_addr (p0 (st_of ex_ops))) = [2%nat]) by reflexivity.
  assert (E2 : ds_ignj (d0 (st_of ex_ops)) (ph_addr (p0 (st_of ex_ops))) = []) by reflexivity.
  unfold ignored. cbn [Ascii.eqb Bool.eqb]. rewrite E1, E2. cbn. intuition discriminate.
Qed.
Lemma ex_current : exists s p d, reachable ex_look ex_ops s /\ cur_phase s p /\ cur_set s d /\ vsize (Vatom Au11) p = 3 /\
  vsize Vlat p = 6 /\ reachable ex_look [] init.
Proof.
  exists (st_of ex_ops), (p0 (st_of ex_ops)), (d0 (st_of ex_ops)). split. apply st_reach. exact I. split. split. apply in_hd; reflexivity. reflexivity. split. split. apply in_hd; reflexivity. reflexivity.
  split. reflexivity. split; reflexivity.
Qed.
