(** Proofs about the session state. *)
From Coq Require Import List ZArith Reals Ascii Bool Lia Lra.
From Verif Require Import Base SessModel SessSpec.
Import ListNotations.
Local Open Scope Z_scope.

(** * lists *)
Lemma upd_nth {A} n x (l : list A) k : nth_error (upd n x l) k = if (Nat.eqb n k) then (match nth_error l k with Some _ => Some x | None => None end) else nth_error l k.
Proof. revert n k. induction l as [|a l IH]; intros [|n] [|k]; cbn; auto. destruct (Nat.eqb n k); auto. Qed.
Lemma upd_len {A} n x (l : list A) : length (upd n x l) = length l.
Proof. revert n. induction l; intros [|n]; cbn; auto. Qed.
Lemma map_upd {A B} (f : A -> B) n x (l : list A) : map f (upd n x l) = upd n (f x) (map f l).
Proof. revert n. induction l; intros [|n]; cbn; f_equal; auto. Qed.
Lemma upd_same {A} n x (l : list A) : nth_error l n = Some x -> upd n x l = l.
Proof. revert n. induction l; intros [|n]; cbn; intros H; try discriminate; f_equal; auto. congruence. Qed.
Lemma one_based_spec ip n : match one_based ip n with None => ip < 1 \/ n < ip | Some k => 1 <= ip <= n /\ k = Z.to_nat (ip - 1) end.
Proof. unfold one_based. destruct (Z.ltb_spec ip 1), (Z.ltb_spec n ip); cbn [orb]; auto; lia. Qed.
Lemma one_based_in ip n : 1 <= ip <= n -> one_based ip n = Some (Z.to_nat (ip - 1)).
Proof. intros H. pose proof (one_based_spec ip n). destruct (one_based ip n) as [k|]. destruct H0. congruence. lia. Qed.
Lemma one_based_out ip n : ip < 1 \/ n < ip -> one_based ip n = None.
Proof. intros H. pose proof (one_based_spec ip n). destruct (one_based ip n) as [k|]; auto. lia. Qed.

(** * the invariant *)
Definition entry_ok (a : addr) (e : option addr) : Prop := e = None \/ e = Some a.
Definition psel_ok (al : list addr) (l : list (option addr)) : Prop := Forall2 entry_ok al l.

Definition scalar_loc (v : sname) : loc :=
  match v with
  | Spscale => LPscale | Sspdiameter => LSpdiameter | Sstepcut => LStepcut | Sdelta2 => LDelta2 | Sdelta1 => LDelta1
  | Ssratio => LSratio | Srcut => LRcut | Sdscale => LDscale | Sqdamp => LQdamp | Sqbroad => LQbroad
  end.
Definition of_set (v : sname) : bool := match v with Sdscale | Sqdamp | Sqbroad => true | _ => false end.

Definition refs_phase (s : session) (p : phase) : Prop :=
  let a := ph_addr p in
  v_elems (s_vec s Vlat) = map (fun j => Some (a, LLat j)) (seq 0 6) /\
  (forall c, v_elems (s_vec s (Vatom c)) = map (fun ia => Some (a, LAtom ia c)) (seq 0 (length (ph_types p)))) /\
  (forall v, of_set v = false -> s_sca s v = Some (a, scalar_loc v)).
Definition refs_set (s : session) (a : addr) : Prop := forall v, of_set v = true -> s_sca s v = Some (a, scalar_loc v).

Definition nums (n : nat) : list Z := map (fun k => Z.of_nat k + 1) (seq 0 n).

Record core (s : session) : Prop := mkCore {
  i_np : s_nphase s = Z.of_nat (length (s_phases s));
  i_ns : s_nset s = Z.of_nat (length (s_sets s));
  i_tot : s_total s = zsum (map (fun p => Z.of_nat (length (ph_types p))) (s_phases s));
  i_ip : map ph_iphase (s_phases s) = nums (length (s_phases s));
  i_is : map ds_iset (s_sets s) = nums (length (s_sets s));
  i_nd : NoDup (map ph_addr (s_phases s) ++ map ds_addr (s_sets s));
  i_lt : Forall (fun a => (a < s_next s)%nat) (map ph_addr (s_phases s) ++ map ds_addr (s_sets s));
  i_sel : Forall (psel_ok (map ph_addr (s_phases s))) (map ds_psel (s_sets s)) }.
Definition cp_ok (s : session) : Prop :=
  match s_curphase s with None => s_phases s = [] | Some a => In a (map ph_addr (s_phases s)) end /\
  (forall p, In p (s_phases s) -> s_curphase s = Some (ph_addr p) -> refs_phase s p).
Definition cs_ok (s : session) : Prop :=
  match s_curset s with None => s_sets s = [] | Some a => In a (map ds_addr (s_sets s)) /\ refs_set s a end.
Definition inv (s : session) : Prop := core s /\ cp_ok s /\ cs_ok s.

Lemma nums_S n : nums (S n) = nums n ++ [Z.of_nat n + 1].
Proof. unfold nums. rewrite seq_S, map_app. auto. Qed.

Lemma init_inv : inv init.
Proof. split; [|split]; [constructor| |]; cbn; auto; try constructor; try congruence; cbn; tauto. Qed.

(** an update that keeps addresses, numbers and atom types *)
Lemma inv_update s phs sets : inv s ->
  map ph_addr phs = map ph_addr (s_phases s) -> map ph_iphase phs = map ph_iphase (s_phases s) -> map ph_types phs = map ph_types (s_phases s) ->
  map ds_addr sets = map ds_addr (s_sets s) -> map ds_iset sets = map ds_iset (s_sets s) ->
  Forall (psel_ok (map ph_addr (s_phases s))) (map ds_psel sets) ->
  inv (mkS (s_next s) phs (s_nphase s) (s_total s) (s_curphase s) sets (s_nset s) (s_curset s) (s_vec s) (s_sca s)).
Proof.
  intros ([] & [C1 C2] & D) E1 E2 E3 E4 E5 E6.
  assert (L1 : length phs = length (s_phases s)) by (rewrite <- (map_length ph_addr), E1; apply map_length).
  assert (L2 : length sets = length (s_sets s)) by (rewrite <- (map_length ds_addr), E4; apply map_length).
  assert (T : map (fun p => Z.of_nat (length (ph_types p))) phs = map (fun p => Z.of_nat (length (ph_types p))) (s_phases s)).
  { rewrite <- (map_map ph_types (fun t => Z.of_nat (length t))), E3, map_map. auto. }
  split; [|split].
  - constructor; cbn [s_nphase s_phases s_nset s_sets s_total s_next s_curphase s_curset s_vec s_sca]; rewrite ?L1, ?L2, ?T, ?E1, ?E2, ?E4, ?E5; auto.
  - split; cbn [s_curphase s_phases]. destruct (s_curphase s). rewrite E1; auto. destruct phs; auto. rewrite C1 in E1. discriminate.
    intros p I C. assert (exists q, In q (s_phases s) /\ ph_addr q = ph_addr p /\ ph_types q = ph_types p) as (q & Q1 & Q2 & Q3).
    { destruct (In_nth_error _ _ I) as [k K].
      assert (K1 : nth_error (map ph_addr phs) k = Some (ph_addr p)) by (rewrite nth_error_map, K; auto).
      assert (K2 : nth_error (map ph_types phs) k = Some (ph_types p)) by (rewrite nth_error_map, K; auto).
      rewrite E1, nth_error_map in K1. rewrite E3, nth_error_map in K2. destruct (nth_error (s_phases s) k) as [q|] eqn:Q; [|discriminate].
      exists q. cbn in K1, K2. split. eapply nth_error_In; eauto. split; congruence. }
    rewrite <- Q2 in C. pose proof (C2 q Q1 C) as R. unfold refs_phase in *. cbn [s_vec s_sca]. rewrite Q2, Q3 in R. auto.
  - unfold cs_ok in *. cbn [s_curset s_sets]. destruct (s_curset s). rewrite E4. auto. destruct sets; auto. rewrite D in E4. discriminate.
Qed.

Lemma inv_sets s sets : inv s -> map ds_addr sets = map ds_addr (s_sets s) -> map ds_iset sets = map ds_iset (s_sets s) ->
  Forall (psel_ok (map ph_addr (s_phases s))) (map ds_psel sets) -> inv (set_sets sets s).
Proof. intros I E1 E2 E3. apply inv_update; auto. Qed.

Lemma psel_in s d : core s -> In d (s_sets s) -> psel_ok (map ph_addr (s_phases s)) (ds_psel d).
Proof. intros I D. pose proof (i_sel s I) as S1. rewrite Forall_forall in S1. apply S1. apply in_map; auto. Qed.

Lemma on_set_inv s a f : inv s -> (forall d, In d (s_sets s) -> ds_addr (f d) = ds_addr d /\ ds_iset (f d) = ds_iset d /\ psel_ok (map ph_addr (s_phases s)) (ds_psel (f d))) -> inv (on_set a f s).
Proof.
  intros I F. apply (inv_sets s (map (fun d => if Nat.eqb (ds_addr d) a then f d else d) (s_sets s))); auto.
  - rewrite map_map. apply map_ext_in. intros d D. destruct (Nat.eqb _ _); auto. apply F; auto.
  - rewrite map_map. apply map_ext_in. intros d D. destruct (Nat.eqb _ _); auto. apply F; auto.
  - rewrite map_map. apply Forall_forall. intros l L. apply in_map_iff in L. destruct L as (d & <- & D). destruct (Nat.eqb _ _). apply F; auto.
    apply psel_in; auto. apply I.
Qed.

Lemma Forall2_nth {A B} (R : A -> B -> Prop) l l' : Forall2 R l l' <-> length l = length l' /\ (forall k a b, nth_error l k = Some a -> nth_error l' k = Some b -> R a b).
Proof.
  split.
  - induction 1; cbn; split; auto. intros [|k]; discriminate. destruct IHForall2; auto. intros [|k] a b; cbn; intros; try congruence. destruct IHForall2. eauto.
  - revert l'. induction l as [|a l IH]; intros [|b l'] [L H]; try discriminate; constructor. apply (H 0%nat); auto. apply IH. split. cbn in L; lia. intros k. apply (H (S k)).
Qed.

Lemma Forall2_length {A B} (R : A -> B -> Prop) l l' : Forall2 R l l' -> length l = length l'.
Proof. induction 1; cbn; auto. Qed.

(** * each operation keeps the invariant *)
Lemma vec_fill_len f v n : length (v_elems (vec_resize n v)) = n /\ v_elems (vec_fill f (vec_resize n v)) = map f (seq 0 n).
Proof.
  assert (L : length (v_elems (vec_resize n v)) = n).
  { unfold vec_resize. assert (E : length (firstn n (v_elems v) ++ repeat None (n - length (v_elems v))) = n).
    { rewrite app_length, firstn_length, repeat_length. lia. } destruct (_ <=? _)%nat; auto. }
  split; auto. unfold vec_fill. cbn [v_elems]. rewrite L. auto.
Qed.

Lemma nodup_app_l {A} (l l' : list A) : NoDup (l ++ l') -> NoDup l.
Proof. induction l as [|a l IH]; cbn; intros H; constructor; inversion H; subst; auto. rewrite in_app_iff in H2. tauto. Qed.
Lemma nodup_app_r {A} (l l' : list A) : NoDup (l ++ l') -> NoDup l'.
Proof. induction l as [|a l IH]; cbn; intros H; auto. inversion H; auto. Qed.
Lemma nodup_snoc {A} (l : list A) a : NoDup l -> ~ In a l -> NoDup (l ++ [a]).
Proof.
  induction l as [|x l IH]; cbn; intros N I. constructor; auto. inversion N; subst. constructor.
  rewrite in_app_iff. cbn. intros [H|[H|[]]]; auto. apply IH; auto.
Qed.
Lemma nodup_map_inj {A B} (f : A -> B) l : NoDup (map f l) -> forall p q, In p l -> In q l -> f p = f q -> p = q.
Proof.
  induction l as [|x l IH]; cbn; [tauto|]. intros N p q P Q E. inversion N; subst. destruct P as [->|P], Q as [->|Q]; auto; exfalso; apply H1.
  rewrite E. apply in_map; auto. rewrite <- E. apply in_map; auto.
Qed.
Lemma phase_inj s : core s -> forall p q, In p (s_phases s) -> In q (s_phases s) -> ph_addr p = ph_addr q -> p = q.
Proof. intros I. apply nodup_map_inj. eapply nodup_app_l. apply (i_nd s I). Qed.
Lemma set_inj s : core s -> forall p q, In p (s_sets s) -> In q (s_sets s) -> ds_addr p = ds_addr q -> p = q.
Proof. intros I. apply nodup_map_inj. eapply nodup_app_r. apply (i_nd s I). Qed.

Lemma core_setphase ip s : core s -> core (fst (setphase ip s)).
Proof. intros []. unfold setphase. destruct (one_based _ _); auto. destruct (nth_error _ _); auto. constructor; auto. constructor; auto. constructor; auto. Qed.

Lemma setphase_inv ip s : core s -> cs_ok s -> (cp_ok s \/ 1 <= ip <= s_nphase s) -> inv (fst (setphase ip s)) /\ snd (setphase ip s) <> UB.
Proof.
  intros I D OK. split.
  - split; [|split]. apply core_setphase; auto.
    + unfold setphase. pose proof (one_based_spec ip (s_nphase s)) as O. destruct (one_based ip (s_nphase s)) as [k|]; [|destruct OK; auto; lia].
      destruct (nth_error (s_phases s) k) as [p|] eqn:P; [|apply nth_error_None in P; rewrite (i_np s I) in O; lia].
      pose proof (nth_error_In _ _ P) as PI. split; cbn [s_curphase s_phases fst]. apply in_map; auto.
      intros q Q E. inversion E. assert (q = p) by (apply (phase_inj s I); auto). subst q.
      split; [|split]; cbn [s_vec s_sca]. apply vec_fill_len. intros c. apply vec_fill_len. intros v V. destruct v; auto; discriminate.
    + unfold setphase. destruct (one_based _ _); auto. destruct (nth_error _ _); auto. unfold cs_ok in *. cbn [fst s_curset s_sets]. destruct (s_curset s) as [b|]; auto.
      destruct D as [D R]. split; auto. intros v V. cbn [s_sca]. specialize (R v V). destruct v; auto; discriminate.
  - unfold setphase. pose proof (one_based_spec ip (s_nphase s)) as O. destruct (one_based ip (s_nphase s)) as [k|]; [|discriminate].
    destruct (nth_error (s_phases s) k) as [p|] eqn:P; [discriminate|apply nth_error_None in P; rewrite (i_np s I) in O; lia].
Qed.

Lemma setdata_inv is s : core s -> cp_ok s -> (cs_ok s \/ 1 <= is <= s_nset s) -> inv (fst (setdata is s)) /\ snd (setdata is s) <> UB.
Proof.
  intros I D OK. unfold setdata. pose proof (one_based_spec is (s_nset s)) as O. destruct (one_based is (s_nset s)) as [k|].
  2:{ split; [|discriminate]. destruct OK; [|lia]. split; auto. }
  destruct (nth_error (s_sets s) k) as [p|] eqn:P; [|apply nth_error_None in P; rewrite (i_ns s I) in O; lia].
  split; [|discriminate]. cbn [fst]. split; [|split].
  - destruct I; constructor; auto.
  - destruct D as [D1 D2]. split; auto. cbn [s_phases s_curphase]. intros q Q E. destruct (D2 q Q E) as (R1 & R2 & R3). split; [|split]; auto.
    intros v V. cbn [s_sca]. specialize (R3 v V). destruct v; auto; discriminate.
  - unfold cs_ok. cbn [s_curset s_sets]. split. apply in_map. eapply nth_error_In; eauto. intros v V. cbn [s_sca]. destruct v; auto; discriminate.
Qed.

Lemma selphase_psel k a d : (k <= length (ds_psel d))%nat -> ds_psel (ds_selphase k a d) = if (k <? length (ds_psel d))%nat then upd k (Some a) (ds_psel d) else ds_psel d ++ [Some a].
Proof.
  intros K. unfold ds_selphase. cbn [ds_psel]. destruct (Nat.leb_spec (length (ds_psel d)) k), (Nat.ltb_spec k (length (ds_psel d))); try lia; auto.
  assert (k = length (ds_psel d)) by lia. subst. replace (S _ - _)%nat with 1%nat by lia. cbn [repeat]. clear. induction (ds_psel d); cbn; f_equal; auto.
Qed.

Lemma sel_all_psel l : forall d, ds_psel (sel_all_from (length (ds_psel d)) l d) = ds_psel d ++ map (fun p => Some (ph_addr p)) l /\
  ds_addr (sel_all_from (length (ds_psel d)) l d) = ds_addr d /\ ds_iset (sel_all_from (length (ds_psel d)) l d) = ds_iset d.
Proof.
  induction l as [|p l IH]; intros d; cbn [sel_all_from map]. rewrite app_nil_r. auto.
  pose proof (selphase_psel (length (ds_psel d)) (ph_addr p) d ltac:(lia)) as E. rewrite Nat.ltb_irrefl in E.
  specialize (IH (ds_selphase (length (ds_psel d)) (ph_addr p) d)). rewrite E in IH. rewrite app_length in IH. cbn [length] in IH. rewrite Nat.add_1_r in IH.
  destruct IH as (I1 & I2 & I3). rewrite I1, I2, I3, <- app_assoc. auto.
Qed.

Lemma zsum_app l x : zsum (l ++ [x]) = zsum l + x.
Proof. induction l; cbn; lia. Qed.

Lemma psel_ok_all l : psel_ok (map ph_addr l) (map (fun p => Some (ph_addr p)) l).
Proof. induction l; cbn; constructor; auto. right; auto. Qed.

Lemma core_add_set d s : core s -> (ds_addr d < s_next s)%nat -> ~ In (ds_addr d) (map ph_addr (s_phases s) ++ map ds_addr (s_sets s)) ->
  ds_iset d = s_nset s + 1 -> ds_psel d = [] -> cp_ok s -> inv (fst (add_set d s)) /\ snd (add_set d s) = Ok tt.
Proof.
  intros I A N E P C. unfold add_set. pose proof (sel_all_psel (s_phases s) d) as (P1 & P2 & P3). rewrite P in P1, P2, P3. cbn [length app] in P1, P2, P3.
  set (d' := sel_all_from 0 (s_phases s) d) in *.
  match goal with |- context[setdata _ ?x] => set (s1 := x) end.
  assert (I1 : core s1).
  { destruct I. constructor; cbn [s1 s_nphase s_phases s_nset s_sets s_total s_next s_curphase s_curset]; auto; rewrite ?app_length, ?map_app; cbn [length map].
    - lia.
    - rewrite Nat.add_1_r, nums_S, i_is0, P3, E, i_ns0. auto.
    - rewrite P2, app_assoc. apply nodup_snoc; auto.
    - rewrite P2, app_assoc. apply Forall_app. split; auto.
    - apply Forall_app. split; auto. constructor; auto. rewrite P1. apply psel_ok_all. }
  assert (C1 : cp_ok s1) by exact C.
  assert (R : 1 <= s_nset s + 1 <= s_nset s1). { destruct I. cbn. rewrite i_ns0. lia. }
  split. apply (setdata_inv (s_nset s + 1) s1); auto.
  unfold setdata. rewrite one_based_in by auto. cbn [s1 s_sets]. destruct I. replace (Z.to_nat (s_nset s + 1 - 1)) with (length (s_sets s)) by lia.
  rewrite nth_error_app2, Nat.sub_diag by lia. auto.
Qed.

Lemma bump_core s : core s -> core (bump s).
Proof. intros []. constructor; auto. cbn. eapply Forall_impl; [|exact i_lt0]. cbn. intros; lia. Qed.
Lemma fresh s : core s -> ~ In (s_next s) (map ph_addr (s_phases s) ++ map ds_addr (s_sets s)).
Proof. intros [] I. rewrite Forall_forall in i_lt0. apply i_lt0 in I. lia. Qed.

Lemma alloc_inv qmax qdamp rmin rmax bin s : inv s -> inv (fst (alloc qmax qdamp rmin rmax bin s)) /\ snd (alloc qmax qdamp rmin rmax bin s) <> UB.
Proof.
  intros I. unfold alloc. repeat (match goal with |- context[if ?b then _ else _] => destruct b end; [split; [auto|discriminate]|]).
  destruct I as (I & C & D). match goal with |- inv (fst (add_set ?d ?t)) /\ _ => destruct (core_add_set d t) as [H1 H2]; [apply bump_core, I|cbn; lia|apply (fresh s I)|auto|auto|exact C|] end.
  split; [exact H1|rewrite H2; discriminate].
Qed.
Lemma read_data_inv r s : inv s -> inv (fst (read_data r s)) /\ snd (read_data r s) <> UB.
Proof.
  intros I. destruct r as [e|c]. split; [auto|discriminate]. unfold read_data.
  destruct I as (I & C & D). match goal with |- inv (fst (add_set ?d ?t)) /\ _ => destruct (core_add_set d t) as [H1 H2]; [apply bump_core, I|cbn; lia|apply (fresh s I)|auto|auto|exact C|] end.
  split; [exact H1|rewrite H2; discriminate].
Qed.

Lemma pos_of_last a l p : ~ In a (map ph_addr l) -> ph_addr p = a -> pos_of a (l ++ [p]) = length l.
Proof.
  induction l as [|q l IH]; cbn; intros N E. rewrite E, Nat.eqb_refl. auto. destruct (Nat.eqb_spec (ph_addr q) a); [tauto|]. rewrite IH; auto.
Qed.

Lemma read_struct_inv r s : inv s -> inv (fst (read_struct r s)) /\ snd (read_struct r s) <> UB.
Proof.
  intros I. destruct r as [e|c]. split; [auto|discriminate]. unfold read_struct. cbv zeta.
  destruct I as (I & C & D). pose proof (fresh s I) as F.
  set (p := mkPh (s_next s) (s_nphase s + 1) (st_types c) (st_val c)).
  match goal with |- context[sel_each _ ?x] => set (s1 := x) end.
  assert (PO : pos_of (ph_addr p) (s_phases s1) = length (s_phases s)). { apply pos_of_last; auto. rewrite in_app_iff in F. tauto. }
  assert (I1 : core (sel_each (ph_addr p) s1)).
  { unfold sel_each. rewrite PO. destruct I.
    assert (M1 : map ds_addr (map (ds_selphase (length (s_phases s)) (ph_addr p)) (s_sets s)) = map ds_addr (s_sets s)) by (rewrite map_map; apply map_ext; auto).
    assert (M2 : map ds_iset (map (ds_selphase (length (s_phases s)) (ph_addr p)) (s_sets s)) = map ds_iset (s_sets s)) by (rewrite map_map; apply map_ext; auto).
    constructor; cbn [s1 s_nphase s_phases s_nset s_sets s_total s_next s_curphase s_curset]; rewrite ?M1, ?M2, ?map_length, ?app_length, ?map_app; cbn [length map]; auto.
    - lia.
    - rewrite zsum_app. unfold ph_natoms. lia.
    - rewrite Nat.add_1_r, nums_S, i_ip0. cbn [p ph_iphase]. rewrite i_np0. auto.
    - rewrite <- app_assoc. apply NoDup_Add with (a := ph_addr p) (l := map ph_addr (s_phases s) ++ map ds_addr (s_sets s)). apply Add_app. auto.
    - apply Forall_app in i_lt0. destruct i_lt0 as [L1 L2]. repeat (apply Forall_app; split); auto.
      eapply Forall_impl; [|exact L1]. cbn. intros; lia. eapply Forall_impl; [|exact L2]. cbn. intros; lia.
    - rewrite map_map. apply Forall_forall. intros l L. apply in_map_iff in L. destruct L as (d & <- & DI).
      assert (PS : psel_ok (map ph_addr (s_phases s)) (ds_psel d)). { rewrite Forall_forall in i_sel0. apply i_sel0. apply in_map; auto. }
      assert (LE : length (ds_psel d) = length (s_phases s)). { apply Forall2_length in PS. rewrite map_length in PS. auto. }
      rewrite selphase_psel by lia. rewrite LE, Nat.ltb_irrefl. apply Forall2_app; auto. constructor; auto. right; auto. }
  apply setphase_inv; auto.
  - unfold cs_ok in *. cbn [sel_each s_curset s_sets s1]. destruct (s_curset s). rewrite map_map. cbn. auto. rewrite D. auto.
  - right. destruct I1. rewrite i_np0. cbn [sel_each s_phases s1]. rewrite app_length. cbn [length]. lia.
Qed.

Lemma find_some_in {A} f (l : list A) x : find f l = Some x -> In x l /\ f x = true.
Proof. apply find_some. Qed.
Lemma cur_set_found s a : core s -> cs_ok s -> s_curset s = Some a -> exists d, find_set s a = Some d /\ In d (s_sets s) /\ ds_addr d = a.
Proof.
  intros I C E. unfold cs_ok in C. rewrite E in C. destruct C as [C _]. apply in_map_iff in C. destruct C as (d & D1 & D2).
  unfold find_set. destruct (find _ _) as [d'|] eqn:F.
  - apply find_some in F. destruct F as [F1 F2]. exists d'. split; auto. split; auto. apply Nat.eqb_eq; auto.
  - exfalso. apply (find_none _ _ F d) in D2. rewrite D1, Nat.eqb_refl in D2. discriminate.
Qed.
Lemma phase_found s p : core s -> In p (s_phases s) -> find_phase s (ph_addr p) = Some p.
Proof.
  intros I P. unfold find_phase. destruct (find _ _) as [d'|] eqn:F.
  - apply find_some in F. destruct F as [F1 F2]. apply Nat.eqb_eq in F2. f_equal. apply (phase_inj s I); auto.
  - exfalso. apply (find_none _ _ F p) in P. rewrite Nat.eqb_refl in P. discriminate.
Qed.
Lemma set_found s p : core s -> In p (s_sets s) -> find_set s (ds_addr p) = Some p.
Proof.
  intros I P. unfold find_set. destruct (find _ _) as [d'|] eqn:F.
  - apply find_some in F. destruct F as [F1 F2]. apply Nat.eqb_eq in F2. f_equal. apply (set_inj s I); auto.
  - exfalso. apply (find_none _ _ F p) in P. rewrite Nat.eqb_refl in P. discriminate.
Qed.

Lemma psel_ok_upd al l k e : psel_ok al l -> (forall a, nth_error al k = Some a -> entry_ok a e) -> psel_ok al (upd k e l).
Proof.
  intros P E. apply Forall2_nth in P. destruct P as [L P]. apply Forall2_nth. split. rewrite upd_len; auto.
  intros j a b A B. rewrite upd_nth in B. destruct (Nat.eqb_spec k j). subst. destruct (nth_error l j); inversion B; subst. auto. eapply P; eauto.
Qed.

Lemma psel_inv ip s : inv s -> inv (fst (psel ip s)) /\ snd (psel ip s) <> UB.
Proof.
  intros I. pose proof I as (I0 & C & D). unfold psel. destruct (s_curset s) as [a|] eqn:CS; [|split; [auto|discriminate]].
  destruct (cur_set_found s a I0 D CS) as (d & F & DI & DA). rewrite F. destruct (ip =? ALL).
  - split; [|discriminate]. apply on_set_inv; auto. intros d' D'. repeat split. apply psel_ok_all.
  - pose proof (one_based_spec ip (s_nphase s)) as O. destruct (one_based ip (s_nphase s)) as [k|]; [|split; [auto|discriminate]].
    destruct (nth_error (s_phases s) k) as [p|] eqn:P; [|apply nth_error_None in P; rewrite (i_np s I0) in O; lia].
    split; [|discriminate]. apply on_set_inv; auto. intros d' D'. split; auto. split; auto.
    pose proof (psel_in s d' I0 D') as PS. pose proof (Forall2_length _ _ _ PS) as LE. rewrite map_length in LE.
    assert (k < length (s_phases s))%nat by (apply nth_error_Some; congruence).
    rewrite selphase_psel by lia. destruct (Nat.ltb_spec k (length (ds_psel d'))); [|lia]. apply psel_ok_upd; auto.
    intros b B. rewrite nth_error_map, P in B. inversion B. right; auto.
Qed.

Lemma pdesel_inv ip s : inv s -> inv (fst (pdesel ip s)) /\ snd (pdesel ip s) <> UB.
Proof.
  intros I. pose proof I as (I0 & C & D). unfold pdesel. destruct (s_curset s) as [a|] eqn:CS; [|split; [auto|discriminate]].
  destruct (cur_set_found s a I0 D CS) as (d & F & DI & DA). rewrite F. destruct (ip =? ALL).
  - split; [|discriminate]. apply on_set_inv; auto. intros d' D'. repeat split. pose proof (psel_in s d' I0 D') as PS. cbn [ds_set_psel ds_psel].
    clear - PS. induction PS; cbn; constructor; auto. left; auto.
  - pose proof (one_based_spec ip (s_nphase s)) as O. destruct (one_based ip (s_nphase s)) as [k|]; [|split; [auto|discriminate]].
    pose proof (psel_in s d I0 DI) as PS. pose proof (Forall2_length _ _ _ PS) as LE. rewrite map_length in LE.
    destruct (Nat.ltb_spec k (length (ds_psel d))); [|rewrite (i_np s I0) in O; lia].
    split; [|discriminate]. apply on_set_inv; auto. intros d' D'. repeat split. apply psel_ok_upd. apply (psel_in s d' I0 D'). left; auto.
Qed.

Lemma check_ok ip ij ai s d p : inv s -> check_sel_args ip ij ai s = Ok (d, p) ->
  cur_set s d /\ phase_no s ip p /\ selected d ip /\ (ij = "i" \/ ij = "j")%char /\ 1 <= ai <= ph_natoms p.
Proof.
  intros I. pose proof I as (I0 & C & D). unfold check_sel_args. destruct (s_curset s) as [a|] eqn:CS; [|discriminate].
  destruct (cur_set_found s a I0 D CS) as (d' & F & DI & DA). rewrite F.
  pose proof (psel_in s d' I0 DI) as PS. apply Forall2_nth in PS. destruct PS as [LE PS]. rewrite map_length in LE.
  pose proof (one_based_spec ip (Z.of_nat (length (ds_psel d')))) as O. destruct (one_based _ _) as [k|]; [|discriminate].
  destruct O as [O1 O2]. subst k. destruct (negb _ && negb _) eqn:IJ; [discriminate|].
  destruct (nth_error (ds_psel d') _) as [[pa|]|] eqn:N; try discriminate. destruct (find_phase s pa) as [q|] eqn:FP; try discriminate.
  destruct ((ai <? 1) || (ph_natoms q <? ai)) eqn:AI; [discriminate|]. intros H. injection H as H1 H2. subst d' q.
  unfold find_phase in FP. apply find_some in FP. destruct FP as [FP1 FP2]. apply Nat.eqb_eq in FP2. subst pa.
  apply orb_false_iff in AI. destruct AI as [A1 A2]. apply Z.ltb_ge in A1, A2.
  split; [split; auto; congruence|]. split; [|split; [split; [lia|eauto]|split; [|lia]]].
  - split; [lia|]. destruct (nth_error (s_phases s) (Z.to_nat (ip - 1))) as [r|] eqn:R; [|apply nth_error_None in R; lia].
    f_equal. apply (phase_inj s I0); auto. eapply nth_error_In; eauto.
    specialize (PS (Z.to_nat (ip - 1)) (ph_addr r) (Some (ph_addr p))). rewrite nth_error_map, R in PS. specialize (PS eq_refl N). destruct PS; congruence.
  - destruct (Ascii.eqb_spec ij "i"), (Ascii.eqb_spec ij "j"); auto; discriminate.
Qed.

Lemma check_ub ip ij ai s : inv s -> check_sel_args ip ij ai s = UB ->
  exists d, cur_set s d /\ 1 <= ip <= Z.of_nat (length (s_phases s)) /\ ~ selected d ip.
Proof.
  intros I. pose proof I as (I0 & C & D). unfold check_sel_args. destruct (s_curset s) as [a|] eqn:CS; [|discriminate].
  destruct (cur_set_found s a I0 D CS) as (d' & F & DI & DA). rewrite F.
  pose proof (psel_in s d' I0 DI) as PS. apply Forall2_nth in PS. destruct PS as [LE PS]. rewrite map_length in LE.
  pose proof (one_based_spec ip (Z.of_nat (length (ds_psel d')))) as O. destruct (one_based _ _) as [k|]; [|discriminate]. destruct O as [O1 O2]. subst k.
  destruct (_ && _); [discriminate|]. destruct (nth_error (ds_psel d') _) as [[pa|]|] eqn:N.
  - destruct (nth_error (s_phases s) (Z.to_nat (ip - 1))) as [r|] eqn:R; [|apply nth_error_None in R; lia].
    pose proof (PS (Z.to_nat (ip - 1)) (ph_addr r) (Some pa)) as Q. rewrite nth_error_map, R in Q. specialize (Q eq_refl N). destruct Q as [Q|Q]; [discriminate|]. inversion Q; subst.
    rewrite (phase_found s r I0) by (eapply nth_error_In; eauto). destruct (_ || _); discriminate.
  - intros _. exists d'. split. split; auto. congruence. split. lia. intros [_ [b B]]. congruence.
  - exfalso. apply nth_error_None in N. lia.
Qed.

Lemma ds_ignore_keeps ij pa f d : ds_addr (ds_ignore ij pa f d) = ds_addr d /\ ds_iset (ds_ignore ij pa f d) = ds_iset d /\ ds_psel (ds_ignore ij pa f d) = ds_psel d.
Proof. unfold ds_ignore. destruct (Ascii.eqb ij "i"); auto. Qed.

Lemma with_args_inv s ip ij ai f : inv s -> inv (fst (with_args s ip ij ai f)).
Proof.
  intros I. unfold with_args. destruct (check_sel_args ip ij ai s) as [[d p]| | |]; auto. destruct (f p); auto.
  apply on_set_inv; auto. intros d' D'. destruct (ds_ignore_keeps ij (ph_addr p) a d') as (E1 & E2 & E3). rewrite E1, E2, E3. split; auto. split; auto. apply psel_in; auto. apply I.
Qed.

Lemma ds_range_keeps a b d d' : ds_range a b d = Some d' -> ds_addr d' = ds_addr d /\ ds_iset d' = ds_iset d /\ ds_psel d' = ds_psel d.
Proof. unfold ds_range. repeat (match goal with |- context[if ?c then _ else _] => destruct c end; try discriminate). intros H. inversion H; subst. auto. Qed.
Lemma range_all_keeps a b l : map ds_addr (fst (range_all a b l)) = map ds_addr l /\ map ds_iset (fst (range_all a b l)) = map ds_iset l /\ map ds_psel (fst (range_all a b l)) = map ds_psel l.
Proof.
  induction l as [|d l IH]; cbn; auto. destruct (ds_range a b d) as [d'|] eqn:E; auto. destruct (range_all a b l) as [r o]. cbn in *.
  destruct (ds_range_keeps _ _ _ _ E) as (E1 & E2 & E3). destruct IH as (I1 & I2 & I3). rewrite E1, E2, E3, I1, I2, I3. auto.
Qed.
Lemma range_all_ub a b l : snd (range_all a b l) <> UB.
Proof. induction l as [|d l IH]; cbn. discriminate. destruct (ds_range a b d). destruct (range_all a b l). auto. discriminate. Qed.

Lemma range_inv is a b s : inv s -> inv (fst (range is a b s)) /\ snd (range is a b s) <> UB.
Proof.
  intros I. pose proof I as (I0 & C & D). unfold range. destruct (Rle_dec b a); [split; [auto|discriminate]|]. destruct (is =? ALL).
  - pose proof (range_all_keeps a b (firstn (Z.to_nat (s_nset s)) (s_sets s))) as (K1 & K2 & K3). pose proof (range_all_ub a b (firstn (Z.to_nat (s_nset s)) (s_sets s))) as U.
    destruct (range_all _ _ _) as [l o]. cbn [fst snd] in *. split; auto.
    apply inv_sets; auto; rewrite map_app, ?K1, ?K2, ?K3, <- map_app, firstn_skipn; auto. apply I0.
  - pose proof (one_based_spec is (s_nset s)) as O. destruct (one_based is (s_nset s)) as [k|]; [|split; [auto|discriminate]].
    destruct (nth_error (s_sets s) k) as [d|] eqn:N; [|apply nth_error_None in N; rewrite (i_ns s I0) in O; lia].
    destruct (ds_range a b d) as [d'|] eqn:E; [|split; [auto|discriminate]]. split; [|discriminate].
    destruct (ds_range_keeps _ _ _ _ E) as (E1 & E2 & E3).
    apply inv_sets; auto; rewrite map_upd, ?E1, ?E2, ?E3, upd_same; auto; try (rewrite nth_error_map, N; auto). apply I0.
Qed.

Lemma store_inv a l x s : inv s -> inv (store a l x s).
Proof.
  intros I. pose proof I as (I0 & _). apply inv_update; auto; rewrite map_map.
  all: try (apply map_ext; intros q; destruct (Nat.eqb _ _); auto).
  assert (E : map (fun d => ds_psel (if Nat.eqb (ds_addr d) a then mkDs (ds_addr d) (ds_iset d) (ds_psel d) (ds_igni d) (ds_ignj d) (ds_rmin d) (ds_rmax d) (ds_rfmin d) (ds_rfmax d) (ds_bin d) (ds_obs d) (ds_wic d) (upd_val l x (ds_val d)) else d)) (s_sets s) = map ds_psel (s_sets s)).
  { apply map_ext. intros q. destruct (Nat.eqb _ _); auto. }
  rewrite E. apply I0.
Qed.

Lemma reset_inv s : inv (reset s).
Proof. split; [|split]; [constructor| |]; cbn; auto; try constructor; try congruence; cbn; tauto. Qed.

Lemma setvar_inv h x s : inv s -> inv (fst (setvar h x s)).
Proof. intros I. unfold setvar. destruct (ref_of h s) as [[[a l]|]| | |]; auto. destruct (load s a l); auto. apply store_inv; auto. Qed.

Lemma step_inv look o s : inv s -> inv (fst (step look o s)).
Proof.
  intros I. pose proof I as (I0 & C & D). destruct o; cbn [step].
  - apply alloc_inv; auto.
  - apply read_data_inv; auto.
  - apply read_struct_inv; auto.
  - apply reset_inv.
  - apply setphase_inv; auto.
  - apply setdata_inv; auto.
  - apply psel_inv; auto.
  - apply pdesel_inv; auto.
  - apply with_args_inv; auto.
  - apply with_args_inv; auto.
  - apply with_args_inv; auto.
  - apply with_args_inv; auto.
  - apply range_inv; auto.
  - destruct v as [n|[n i]]; cbn [setvar_now]. apply setvar_inv; auto. destruct (get_ref n i s); auto. apply setvar_inv; auto.
Qed.

Lemma run_inv look l : forall s t, inv s -> run look l s = Ok t -> inv t.
Proof.
  induction l as [|o l IH]; cbn; intros s t I H. inversion H; subst; auto. pose proof (step_inv look o s I) as J.
  destruct (step look o s) as [s' [u|e| |]]; try discriminate; eapply IH; eauto.
Qed.

Lemma nums_nth n k : (k < n)%nat -> nth_error (nums n) k = Some (Z.of_nat k + 1).
Proof. intros K. unfold nums. rewrite nth_error_map. assert (nth_error (seq 0 n) k = Some k) as ->; auto. rewrite (nth_error_nth' _ 0%nat) by (rewrite seq_length; auto). rewrite seq_nth; auto. Qed.

Lemma inv_consistent s : inv s -> consistent s.
Proof.
  intros (I & [C1 C2] & D). split; [|split].
  - pose proof I as []. repeat split; auto.
    + intros k p K. assert (L : (k < length (s_phases s))%nat) by (apply nth_error_Some; congruence). pose proof (nums_nth _ _ L) as N. rewrite <- i_ip0, nth_error_map, K in N. inversion N; auto.
    + intros k p K. assert (L : (k < length (s_sets s))%nat) by (apply nth_error_Some; congruence). pose proof (nums_nth _ _ L) as N. rewrite <- i_is0, nth_error_map, K in N. inversion N; auto.
  - intros d DI. pose proof (psel_in s d I DI) as P. apply Forall2_nth in P. destruct P as [L P]. rewrite map_length in L. split; auto.
    intros k e K. assert (LT : (k < length (s_phases s))%nat) by (rewrite L; apply nth_error_Some; congruence). apply nth_error_Some in LT.
    destruct (nth_error (s_phases s) k) as [p|] eqn:N; [|tauto]. exists p. split; auto.
    specialize (P k (ph_addr p) (Some e)). rewrite nth_error_map, N in P. destruct (P eq_refl K); congruence.
  - split.
    + destruct (s_curphase s); auto. apply in_map_iff in C1. destruct C1 as (p & E & P). exists p; auto.
    + unfold cs_ok in D. destruct (s_curset s); auto. destruct D as [D _]. apply in_map_iff in D. destruct D as (p & E & P). exists p; auto.
Qed.

Lemma session_consistent look l s : run look l init = Ok s -> consistent s.
Proof. intros H. apply inv_consistent. eapply run_inv; eauto. apply init_inv. Qed.
