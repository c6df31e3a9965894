(** More proofs about the session: rejected calls, new objects, atom selection,
    ranges and variables. *)
From Coq Require Import List ZArith Reals Ascii Bool Lia Lra.
From Verif Require Import Base SessModel SessSpec SessProof.
Import ListNotations.
Local Open Scope Z_scope.

Lemma reach_inv look l s : reachable look l s -> inv s.
Proof. intros H. eapply run_inv; eauto. apply init_inv. Qed.

(** * new phases and data sets *)
Lemma read_struct_new c s : inv s -> exists s' p, read_struct (inr c) s = (s', Ok tt) /\
  s_phases s' = s_phases s ++ [p] /\ ph_types p = st_types c /\ ph_val p = st_val c /\ cur_phase s' p /\
  map ds_psel (s_sets s') = map (fun d => ds_psel d ++ [Some (ph_addr p)]) (s_sets s) /\
  s_curset s' = s_curset s.
Proof.
  intros (I & C & D). pose proof (fresh s I) as F. unfold read_struct. cbv zeta.
  set (p := mkPh (s_next s) (s_nphase s + 1) (st_types c) (st_val c)).
  match goal with |- context[sel_each _ ?x] => set (s1 := x) end.
  assert (PO : pos_of (ph_addr p) (s_phases s1) = length (s_phases s)). { apply pos_of_last; auto. rewrite in_app_iff in F. tauto. }
  unfold sel_each. rewrite PO. cbn [s_nphase]. unfold setphase. cbn [s_nphase s1]. pose proof (i_np s I) as NP.
  rewrite one_based_in by lia. cbn [s_phases s1]. replace (Z.to_nat (s_nphase s + 1 - 1)) with (length (s_phases s)) by lia.
  rewrite nth_error_app2, Nat.sub_diag by lia. cbn [nth_error]. eexists. exists p. split; [reflexivity|]. cbn.
  split; auto. split; auto. split; auto. split. split; auto; apply in_or_app; cbn; auto. split; auto.
  rewrite map_map. apply map_ext_in. intros d DI. pose proof (psel_in s d I DI) as PS. apply Forall2_length in PS. rewrite map_length in PS.
  rewrite selphase_psel by lia. rewrite PS, Nat.ltb_irrefl. auto.
Qed.

Lemma add_set_new d s : inv s -> ds_psel d = [] -> exists s' d', add_set d s = (s', Ok tt) /\ s_sets s' = s_sets s ++ [d'] /\ s_phases s' = s_phases s /\
  s_curset s' = Some (ds_addr d') /\ ds_psel d' = map (fun p => Some (ph_addr p)) (s_phases s) /\ s_curphase s' = s_curphase s /\
  ds_rmin d' = ds_rmin d /\ ds_rmax d' = ds_rmax d /\ ds_obs d' = ds_obs d.
Proof.
  intros (I & C & D) P. unfold add_set. pose proof (sel_all_psel (s_phases s) d) as (P1 & P2 & P3). rewrite P in P1. cbn [length app] in P1.
  set (d' := sel_all_from 0 (s_phases s) d) in *. unfold setdata. cbn [s_nset s_sets]. pose proof (i_ns s I) as NP.
  rewrite one_based_in by lia. replace (Z.to_nat (s_nset s + 1 - 1)) with (length (s_sets s)) by lia.
  rewrite nth_error_app2, Nat.sub_diag by lia. cbn [nth_error]. eexists. exists d'. split; [reflexivity|]. cbn. repeat (split; auto).
  all: unfold d'; clear; generalize 0%nat; revert d; induction (s_phases s) as [|p l IH]; cbn; intros d n; auto; rewrite IH; auto.
Qed.

Lemma bump_inv s : inv s -> inv (bump s).
Proof. intros (I & C & D). split; [apply bump_core; auto|]. split; auto. Qed.

Lemma read_data_new c s : inv s -> exists s' d, read_data (inr c) s = (s', Ok tt) /\ s_sets s' = s_sets s ++ [d] /\ s_phases s' = s_phases s /\
  cur_set s' d /\ ds_psel d = map (fun p => Some (ph_addr p)) (s_phases s) /\ s_curphase s' = s_curphase s /\ ds_obs d = dc_obs c.
Proof.
  intros I. unfold read_data. match goal with |- context[add_set ?d ?s] => destruct (add_set_new d s) as (s' & d' & E & H1 & H2 & H3 & H4 & H5 & H6 & H7 & H8) end.
  apply bump_inv; auto. auto. exists s', d'. rewrite E. split; auto. split; auto. split; auto. split; [|auto]. split; auto. rewrite H1, in_app_iff. cbn; auto.
Qed.

Lemma alloc_new qmax qdamp rmin rmax bin s : inv s -> (0 <= rmin <= rmax)%R -> 1 < bin -> (0 <= qmax)%R -> (0 <= qdamp)%R ->
  exists s' d, alloc qmax qdamp rmin rmax bin s = (s', Ok tt) /\ s_sets s' = s_sets s ++ [d] /\ s_phases s' = s_phases s /\
  cur_set s' d /\ ds_psel d = map (fun p => Some (ph_addr p)) (s_phases s) /\ s_curphase s' = s_curphase s /\ ds_rmin d = rmin /\ ds_rmax d = rmax.
Proof.
  intros I R1 B Q1 Q2. unfold alloc. destruct (Rlt_dec rmax rmin); [lra|]. destruct (Rlt_dec rmin 0); [lra|]. destruct (Rlt_dec rmax 0); [lra|].
  destruct (Z.leb_spec bin 1); [lia|]. destruct (Rlt_dec qmax 0); [lra|]. destruct (Rlt_dec qdamp 0); [lra|]. cbv zeta.
  match goal with |- context[add_set ?d ?s] => destruct (add_set_new d s) as (s' & d' & E & H1 & H2 & H3 & H4 & H5 & H6 & H7 & H8) end.
  apply bump_inv; auto. auto. exists s', d'. rewrite E. split; auto. split; auto. split; auto. split; [|auto]. split; auto. rewrite H1, in_app_iff. cbn; auto.
Qed.

(** * rejected calls *)
Lemma add_set_ok d s : inv s -> ds_psel d = [] -> snd (add_set d s) = Ok tt.
Proof. intros I P. destruct (add_set_new d s I P) as (s' & d' & E & _). rewrite E. auto. Qed.

Lemma step_rejected look o s s' e : inv s -> step look o s = (s', Err e) -> (forall a b, o <> ORange ALL a b) -> s' = s.
Proof.
  intros I H NA. destruct o; cbn [step] in H.
  - unfold alloc in H. repeat (match type of H with context[if ?b then _ else _] => destruct b end; [inversion H; auto; fail|]). cbv zeta in H.
    match type of H with add_set ?d ?t = _ => destruct (add_set_new d t) as (s1 & d1 & E & _); [apply bump_inv; auto|auto|rewrite E in H; discriminate] end.
  - destruct r; [inversion H; auto|]. destruct (read_data_new d s I) as (s1 & d1 & E & _). rewrite E in H. discriminate.
  - destruct r; [inversion H; auto|]. destruct (read_struct_new s0 s I) as (s1 & d1 & E & _). rewrite E in H. discriminate.
  - discriminate.
  - unfold setphase in H. destruct (one_based _ _); [|inversion H; auto]. destruct (nth_error _ _); inversion H; auto.
  - unfold setdata in H. destruct (one_based _ _); [|inversion H; auto]. destruct (nth_error _ _); inversion H; auto.
  - unfold psel in H. destruct (s_curset s); [|inversion H; auto]. destruct (find_set s a); [|inversion H]. destruct (ip =? ALL); [inversion H|].
    destruct (one_based _ _); [|inversion H; auto]. destruct (nth_error _ _); inversion H; auto.
  - unfold pdesel in H. destruct (s_curset s); [|inversion H; auto]. destruct (find_set s a); [|inversion H]. destruct (ip =? ALL); [inversion H|].
    destruct (one_based _ _); [|inversion H; auto]. destruct (_ <? _)%nat; inversion H; auto.
  - unfold select_type, with_args in H. destruct (check_sel_args _ _ _ _) as [[d p]| | |]; [|inversion H; auto..]. destruct (look smb); inversion H; auto.
  - unfold select_index, with_args in H. destruct (check_sel_args _ _ _ _) as [[d p]| | |]; inversion H; auto.
  - unfold select_all, with_args in H. destruct (check_sel_args _ _ _ _) as [[d p]| | |]; inversion H; auto.
  - unfold select_none, with_args in H. destruct (check_sel_args _ _ _ _) as [[d p]| | |]; inversion H; auto.
  - unfold range in H. destruct (Rle_dec _ _); [inversion H; auto|]. destruct (Z.eqb_spec is ALL); [subst; exfalso; eapply NA; eauto|].
    destruct (one_based _ _); [|inversion H; auto]. destruct (nth_error _ _); [|inversion H]. destruct (ds_range _ _ _); inversion H; auto.
  - destruct v as [n|[n i]]; cbn [setvar_now] in H; [|destruct (get_ref n i s); [|inversion H; auto..]]; unfold setvar in H.
    + destruct (ref_of _ s) as [[[a l]|]| | |]; [|inversion H; auto..]. destruct (load s a l); inversion H; auto.
    + destruct (ref_of _ s) as [[[b l]|]| | |]; [|inversion H; auto..]. destruct (load s b l); inversion H; auto.
Qed.

(** * ranges *)
Lemma ds_range_some a b d : (a < b)%R -> covers d a b -> exists d', ds_range a b d = Some d' /\ same_but_range d d' /\ ds_rfmin d' = a /\ ds_rfmax d' = b.
Proof.
  intros L [C1 C2]. unfold ds_range. destruct (Rle_dec (ds_rmin d) a); [|lra]. destruct (Rle_dec a (ds_rmax d)); [|lra]. destruct (Rle_dec b (ds_rmax d)); [|lra]. destruct (Rlt_dec a b); [|lra].
  eexists. split; [reflexivity|]. split; auto. reflexivity.
Qed.
Lemma ds_range_none a b d : (a < b)%R -> ~ covers d a b -> ds_range a b d = None.
Proof.
  intros L C. unfold ds_range. destruct (Rle_dec (ds_rmin d) a); auto. destruct (Rle_dec a (ds_rmax d)); auto. destruct (Rle_dec b (ds_rmax d)); auto. destruct (Rlt_dec a b); auto.
  exfalso. apply C. split; auto.
Qed.
Lemma covers_dec d a b : {covers d a b} + {~ covers d a b}.
Proof. unfold covers. destruct (Rle_dec (ds_rmin d) a), (Rle_dec b (ds_rmax d)); [left|right..]; tauto. Qed.

Lemma range_all_ok a b l : (a < b)%R -> (forall d, In d l -> covers d a b) ->
  snd (range_all a b l) = Ok tt /\ Forall2 (fun d d' => same_but_range d d' /\ ds_rfmin d' = a /\ ds_rfmax d' = b) l (fst (range_all a b l)).
Proof.
  intros L. induction l as [|d l IH]; intros C; cbn. split; auto. destruct (ds_range_some a b d L) as (d' & E & S1 & S2). apply C; cbn; auto. rewrite E.
  destruct IH as [I1 I2]. intros; apply C; cbn; auto. destruct (range_all a b l). cbn in *. split; auto.
Qed.
Lemma range_all_err a b l : (a < b)%R -> (exists d, In d l /\ ~ covers d a b) -> snd (range_all a b l) = Err ErrValue.
Proof.
  intros L. induction l as [|d l IH]; intros (x & X & C); cbn. destruct X. destruct (covers_dec d a b) as [K|K].
  - destruct (ds_range_some a b d L K) as (d' & E & _). rewrite E. destruct X as [->|X]; [tauto|]. specialize (IH (ex_intro _ x (conj X C))). destruct (range_all a b l). auto.
  - rewrite ds_range_none; auto.
Qed.

Lemma range_spec is a b s : inv s ->
  (accepts s is a b -> exists s', range is a b s = (s', Ok tt) /\ same_but_sets s s' /\ length (s_sets s') = length (s_sets s) /\
     forall k d d', nth_error (s_sets s) k = Some d -> nth_error (s_sets s') k = Some d' ->
       (range_names is k -> same_but_range d d' /\ ds_rfmin d' = a /\ ds_rfmax d' = b) /\ (~ range_names is k -> d' = d)) /\
  (~ accepts s is a b -> snd (range is a b s) = Err ErrValue).
Proof.
  intros (I & _). pose proof (i_ns s I) as NS. unfold range. rewrite NS, Nat2Z.id, firstn_all, skipn_all. split.
  - intros [L A]. destruct (Rle_dec b a); [lra|]. destruct (Z.eqb_spec is ALL) as [->|NA].
    + destruct A as [[_ A]|(d & [D1 _] & _)]; [|unfold ALL in D1; lia]. destruct (range_all_ok a b _ L A) as [R1 R2]. destruct (range_all a b (s_sets s)) as [r o].
      cbn in R1, R2. subst o. eexists. split; [rewrite app_nil_r; reflexivity|]. split. reflexivity. apply Forall2_nth in R2. destruct R2 as [R2 R3]. cbn [s_sets set_sets]. split; auto.
      intros k d d' K K'. split. intros _. eapply R3; eauto. intros N. exfalso. apply N. left; auto.
    + destruct A as [[? _]|(d & [D1 D2] & C)]; [tauto|].
      assert (LT : (Z.to_nat (is - 1) < length (s_sets s))%nat) by (apply nth_error_Some; congruence).
      rewrite one_based_in by lia. rewrite D2. destruct (ds_range_some a b d L C) as (d' & E & S1 & S2 & S3). rewrite E.
      eexists. split; [reflexivity|]. split. reflexivity. cbn [s_sets set_sets]. split. apply upd_len.
      intros k x x' K K'. rewrite upd_nth, K in K'. destruct (Nat.eqb_spec (Z.to_nat (is - 1)) k).
      * subst k. rewrite D2 in K. injection K as <-. injection K' as <-. split; auto. intros N. exfalso. apply N. right. lia.
      * split. intros [?|?]; [tauto|lia]. congruence.
  - intros A. destruct (Rle_dec b a); auto. assert (L : (a < b)%R) by lra. destruct (Z.eqb_spec is ALL) as [->|NA].
    + pose proof (range_all_err a b (s_sets s) L) as E. destruct (range_all a b (s_sets s)) as [r o]. cbn in *. apply E.
      destruct (Forall_Exists_dec (fun d => covers d a b) (fun d => covers_dec d a b) (s_sets s)) as [F|F].
      * exfalso. apply A. split; auto. left. split; auto. apply Forall_forall. auto.
      * apply Exists_exists. auto.
    + pose proof (one_based_spec is (Z.of_nat (length (s_sets s)))) as O. destruct (one_based _ _) as [k|]; auto. destruct O as [O ->].
      destruct (nth_error (s_sets s) (Z.to_nat (is - 1))) as [d|] eqn:N; [|apply nth_error_None in N; lia].
      rewrite ds_range_none; auto. intros C. apply A. split; auto. right. exists d. split; auto. split; auto. lia.
Qed.

(** * where undefined behaviour can come from *)
Lemma find_set_none_phase s p : core s -> In p (s_phases s) -> find_set s (ph_addr p) = None.
Proof.
  intros I P. unfold find_set. destruct (find _ _) as [d|] eqn:F; auto. exfalso. apply find_some in F. destruct F as [F1 F2]. apply Nat.eqb_eq in F2.
  pose proof (i_nd s I) as N. apply in_split in P. destruct P as (l1 & l2 & P). rewrite P, map_app in N. cbn [map] in N. rewrite <- app_assoc in N. apply NoDup_remove_2 in N.
  apply N. rewrite !in_app_iff. right. right. rewrite <- F2. apply in_map. auto.
Qed.
Lemma find_phase_none_set s d : core s -> In d (s_sets s) -> find_phase s (ds_addr d) = None.
Proof.
  intros I D. unfold find_phase. destruct (find _ _) as [p|] eqn:F; auto. exfalso. apply find_some in F. destruct F as [F1 F2]. apply Nat.eqb_eq in F2.
  pose proof (find_set_none_phase s p I F1) as N. rewrite F2, (set_found s d I D) in N. discriminate.
Qed.

Lemma phase_var_scalar v l : phase_var v = Some l -> of_set v = false /\ scalar_loc v = l.
Proof. destruct v; cbn; intros H; inversion H; auto. Qed.
Lemma set_var_scalar v l : set_var v = Some l -> of_set v = true /\ scalar_loc v = l.
Proof. destruct v; cbn; intros H; inversion H; auto. Qed.

(** the live reference behind a name *)
Definition points (h : handle) (s : session) (a : addr) (l : loc) : Prop := ref_of h s = Ok (Some (a, l)).

Lemma get_ref_points v i s p : inv s -> cur_phase s p -> 1 <= i <= vsize v p -> vsize v p < 2^31 ->
  get_ref v i s = Ok (HVec v (Z.to_nat (i - 1)) (v_gen (s_vec s v))) /\ points (HVec v (Z.to_nat (i - 1)) (v_gen (s_vec s v))) s (ph_addr p) (vloc v (Z.to_nat (i - 1))).
Proof.
  intros (I & [_ C] & _) [P1 P2] B S1. destruct (C p P1 P2) as (R1 & R2 & R3).
  assert (E : v_elems (s_vec s v) = map (fun k => Some (ph_addr p, vloc v k)) (seq 0 (Z.to_nat (vsize v p)))).
  { destruct v; cbn [vsize vloc]. rewrite R1. reflexivity. rewrite R2, Nat2Z.id. reflexivity. }
  assert (LE : Z.of_nat (length (v_elems (s_vec s v))) = vsize v p). { rewrite E, map_length, seq_length. lia. }
  unfold get_ref. cbv zeta. rewrite LE. destruct (Z.eqb_spec (vsize v p) 0); [lia|].
  assert (U : u32 i = i). { unfold u32. apply Z.mod_small. change (2^31) with 2147483648 in S1. lia. }
  rewrite U. destruct (Z.ltb_spec (vsize v p) i); [lia|]. destruct (Z.ltb_spec i 1); [lia|]. cbn [orb]. split; auto.
  unfold points, ref_of. cbv zeta. rewrite Nat.eqb_refl, E, nth_error_map.
  rewrite (nth_error_nth' _ 0%nat) by (rewrite seq_length; lia). rewrite seq_nth by lia. auto.
Qed.

Lemma get_ref_outside v i s p : inv s -> cur_phase s p -> -2^31 <= i < 2^31 -> i < 1 \/ vsize v p < i -> vsize v p < 2^31 ->
  get_ref v i s = Err (if vsize v p =? 0 then ErrUnassigned else ErrValue).
Proof.
  intros (I & [_ C] & _) [P1 P2] B O S1. destruct (C p P1 P2) as (R1 & R2 & R3).
  assert (LE : Z.of_nat (length (v_elems (s_vec s v))) = vsize v p).
  { destruct v; cbn [vsize]. rewrite R1. reflexivity. rewrite R2, map_length, seq_length. auto. }
  unfold get_ref. cbv zeta. rewrite LE. destruct (Z.eqb_spec (vsize v p) 0); auto.
  change (2^31) with 2147483648 in *. assert (V : 0 <= vsize v p) by lia.
  destruct (Z.ltb_spec (vsize v p) (u32 i)), (Z.ltb_spec (u32 i) 1); cbn [orb]; auto. exfalso.
  unfold u32 in *. destruct O as [O|O].
  - assert (i <> 0) by (intros ->; cbn in H0; lia). assert (E : i mod 4294967296 = i + 4294967296). { symmetry. apply Z.mod_unique with (-1); lia. } rewrite E in H. lia.
  - rewrite Z.mod_small in H by lia. lia.
Qed.

Lemma load_phase s p l : core s -> In p (s_phases s) -> loc_ok p l = true -> load s (ph_addr p) l = Ok (ph_val p l).
Proof. intros I P L. unfold load. rewrite (phase_found s p I P), L. auto. Qed.
Lemma load_set s d l : core s -> In d (s_sets s) -> ds_loc_ok l = true -> load s (ds_addr d) l = Ok (ds_val d l).
Proof. intros I P L. unfold load. rewrite (find_phase_none_set s d I P), (set_found s d I P), L. auto. Qed.

Lemma upd_val_spec l x f : upd_val l x f l = x /\ forall m, m <> l -> upd_val l x f m = f m.
Proof. unfold upd_val. split. destruct (loc_eq_dec l l); tauto. intros m M. destruct (loc_eq_dec m l); tauto. Qed.

Lemma store_phase s p l x : core s -> In p (s_phases s) -> only_phase_var s (store (ph_addr p) l x s) p l x.
Proof.
  intros I P. unfold store. split; [|split]; cbn [s_phases].
  - f_equal. rewrite <- (map_id (s_sets s)) at 2. apply map_ext_in. intros d D. destruct (Nat.eqb_spec (ds_addr d) (ph_addr p)); auto. exfalso.
    pose proof (find_set_none_phase s p I P) as F. rewrite <- e, (set_found s d I D) in F. discriminate.
  - apply map_length.
  - intros k q q' K K'. rewrite nth_error_map, K in K'. cbn in K'. injection K' as <-. pose proof (nth_error_In _ _ K) as Q. split.
    + intros N. destruct (Nat.eqb_spec (ph_addr q) (ph_addr p)); auto. exfalso. apply N. apply (phase_inj s I); auto.
    + intros ->. rewrite Nat.eqb_refl. cbn. destruct (upd_val_spec l x (ph_val p)). auto.
Qed.
Lemma store_set s d l x : core s -> In d (s_sets s) -> only_set_var s (store (ds_addr d) l x s) d l x.
Proof.
  intros I P. unfold store. split; [|split]; cbn [s_sets].
  - unfold same_but_sets. cbn. f_equal. rewrite <- (map_id (s_phases s)) at 2. apply map_ext_in. intros p D. destruct (Nat.eqb_spec (ph_addr p) (ds_addr d)); auto. exfalso.
    pose proof (find_set_none_phase s p I D) as F. rewrite e, (set_found s d I P) in F. discriminate.
  - apply map_length.
  - intros k q q' K K'. rewrite nth_error_map, K in K'. cbn in K'. injection K' as <-. pose proof (nth_error_In _ _ K) as Q. split.
    + intros N. destruct (Nat.eqb_spec (ds_addr q) (ds_addr d)); auto. exfalso. apply N. apply (set_inj s I); auto.
    + intros ->. rewrite Nat.eqb_refl. cbn. destruct (upd_val_spec l x (ds_val d)). auto.
Qed.

Lemma use_phase_ref h s p l : inv s -> In p (s_phases s) -> points h s (ph_addr p) l -> loc_ok p l = true ->
  getvar h s = Ok (ph_val p l) /\ forall x, exists s', setvar h x s = (s', Ok tt) /\ only_phase_var s s' p l x.
Proof.
  intros (I & _) P H L. unfold getvar, setvar. rewrite H. cbn [obind]. rewrite (load_phase s p l I P L). split; auto.
  intros x. rewrite H, (load_phase s p l I P L). eexists. split; [reflexivity|]. apply store_phase; auto.
Qed.
Lemma use_set_ref h s d l : inv s -> In d (s_sets s) -> points h s (ds_addr d) l -> ds_loc_ok l = true ->
  getvar h s = Ok (ds_val d l) /\ forall x, exists s', setvar h x s = (s', Ok tt) /\ only_set_var s s' d l x.
Proof.
  intros (I & _) P H L. unfold getvar, setvar. rewrite H. cbn [obind]. rewrite (load_set s d l I P L). split; auto.
  intros x. rewrite H, (load_set s d l I P L). eexists. split; [reflexivity|]. apply store_set; auto.
Qed.

Lemma vloc_ok v p i : 1 <= i <= vsize v p -> loc_ok p (vloc v (Z.to_nat (i - 1))) = true.
Proof. destruct v; cbn [vloc loc_ok vsize]; intros H; apply Nat.ltb_lt; lia. Qed.

Lemma indexed_var look l s p v i : reachable look l s -> cur_phase s p -> vsize v p < 2^31 -> -2^31 <= i < 2^31 ->
  (1 <= i <= vsize v p -> exists h, get_ref v i s = Ok h /\ getvar h s = Ok (ph_val p (vloc v (Z.to_nat (i - 1)))) /\
     forall x, exists s', setvar h x s = (s', Ok tt) /\ only_phase_var s s' p (vloc v (Z.to_nat (i - 1))) x) /\
  (i < 1 \/ vsize v p < i -> get_ref v i s = Err (if vsize v p =? 0 then ErrUnassigned else ErrValue)).
Proof.
  intros R C B1 B2. pose proof (reach_inv _ _ _ R) as I. split.
  - intros B. destruct (get_ref_points v i s p I C B B1) as [G P]. eexists. split; [exact G|]. apply use_phase_ref; auto. apply C. apply vloc_ok; auto.
  - intros O. apply get_ref_outside; auto.
Qed.

Lemma scalar_phase_var look l s p v lo : reachable look l s -> cur_phase s p -> phase_var v = Some lo ->
  getvar (HSca v) s = Ok (ph_val p lo) /\ forall x, exists s', setvar (HSca v) x s = (s', Ok tt) /\ only_phase_var s s' p lo x.
Proof.
  intros R C V. pose proof (reach_inv _ _ _ R) as I. destruct (phase_var_scalar v lo V) as [V1 V2]. apply use_phase_ref; auto. apply C.
  - destruct I as (I & [_ C2] & _). destruct C as [P1 P2]. destruct (C2 p P1 P2) as (_ & _ & R3). unfold points, ref_of. rewrite (R3 v V1), V2. auto.
  - destruct v; inversion V; auto.
Qed.
Lemma scalar_set_var look l s d v lo : reachable look l s -> cur_set s d -> set_var v = Some lo ->
  getvar (HSca v) s = Ok (ds_val d lo) /\ forall x, exists s', setvar (HSca v) x s = (s', Ok tt) /\ only_set_var s s' d lo x.
Proof.
  intros R [C1 C2] V. pose proof (reach_inv _ _ _ R) as I. destruct (set_var_scalar v lo V) as [V1 V2]. apply use_set_ref; auto.
  - destruct I as (I & _ & D). unfold cs_ok in D. rewrite C2 in D. destruct D as [_ D]. unfold points, ref_of. rewrite (D v V1), V2. auto.
  - destruct v; inversion V; auto.
Qed.

(** ** a new data set *)
Lemma sel_all_keeps l : forall d n, let e := sel_all_from n l d in
  ds_igni e = ds_igni d /\ ds_ignj e = ds_ignj d /\ ds_rmin e = ds_rmin d /\ ds_rmax e = ds_rmax d /\ ds_rfmin e = ds_rfmin d /\ ds_rfmax e = ds_rfmax d /\
  ds_bin e = ds_bin d /\ ds_obs e = ds_obs d /\ ds_wic e = ds_wic d /\ ds_val e = ds_val d.
Proof. induction l as [|p l IH]; cbn; intros d n. repeat split. apply (IH (ds_selphase n (ph_addr p) d) (S n)). Qed.
Lemma last_app {A} (l : list A) x y : l ++ [x] = l ++ [y] -> x = y.
Proof. intros H. apply app_inv_head in H. congruence. Qed.
Lemma add_set_is d s s' r : add_set d s = (s', r) -> s_sets s' = s_sets s ++ [sel_all_from 0 (s_phases s) d].
Proof.
  unfold add_set, setdata. cbn [s_nset s_sets]. destruct (one_based _ _). destruct (nth_error _ _). all: intros H; inversion H; reflexivity.
Qed.
Lemma run_snoc look o s' : forall l s0 s, run look l s0 = Ok s -> step look o s = (s', Ok tt) -> run look (l ++ [o]) s0 = Ok s'.
Proof.
  induction l as [|x l IH]; cbn [run app]; intros s0 s R E. inversion R; subst. rewrite E. reflexivity.
  destruct (step look x s0) as [s1 [ | | | ]]; try discriminate; apply (IH _ _ R E).
Qed.
Lemma new_set_reads look l s o s' d : reachable look l s -> step look o s = (s', Ok tt) -> cur_set s' d ->
  getvar (HSca Sdscale) s' = Ok (ds_val d LDscale) /\ getvar (HSca Sqdamp) s' = Ok (ds_val d LQdamp) /\ getvar (HSca Sqbroad) s' = Ok (ds_val d LQbroad).
Proof.
  intros R E C. assert (R' : reachable look (l ++ [o]) s'). { apply (run_snoc look o s' l init s R E). }
  repeat split; apply (scalar_set_var look (l ++ [o]) s' d); auto.
Qed.
Lemma read_data_values look l s c : reachable look l s -> exists s' d, step look (OReadData (inr c)) s = (s', Ok tt) /\ s_sets s' = s_sets s ++ [d] /\ cur_set s' d /\
  fresh_set d (dc_rmin c) (dc_rmax c) (dc_obs c) (dc_wic c) /\
  getvar (HSca Sdscale) s' = Ok 1%R /\ getvar (HSca Sqdamp) s' = Ok (dc_qdamp c) /\ getvar (HSca Sqbroad) s' = Ok 0%R.
Proof.
  intros R. destruct (read_data_new c s (reach_inv _ _ _ R)) as (s' & d & E & S1 & _ & C & _). exists s', d. split; auto. split; auto. split; auto.
  destruct (new_set_reads look l s (OReadData (inr c)) s' d R E C) as (V1 & V2 & V3). rewrite V1, V2, V3.
  unfold read_data in E. pose proof (add_set_is _ _ _ _ E) as A. rewrite S1 in A. cbn [s_sets bump] in A. apply last_app in A.
  match type of A with _ = sel_all_from 0 ?l ?d0 => pose proof (sel_all_keeps l d0 0%nat) as (K1 & K2 & K3 & K4 & K5 & K6 & K7 & K8 & K9 & K10) end.
  rewrite <- A in *. unfold fresh_set. rewrite K1, K2, K3, K4, K5, K6, K7, K8, K9, K10. repeat split.
Qed.
Lemma alloc_values look l s qmax qdamp rmin rmax bin : reachable look l s -> (0 <= rmin <= rmax)%R -> 1 < bin -> (0 <= qmax)%R -> (0 <= qdamp)%R ->
  exists s' d, step look (OAlloc qmax qdamp rmin rmax bin) s = (s', Ok tt) /\ s_sets s' = s_sets s ++ [d] /\ cur_set s' d /\
  fresh_set d rmin rmax (repeat 0%R (Z.to_nat bin)) (repeat 1%R (Z.to_nat bin)) /\
  getvar (HSca Sdscale) s' = Ok 1%R /\ getvar (HSca Sqdamp) s' = Ok qdamp /\ getvar (HSca Sqbroad) s' = Ok 0%R.
Proof.
  intros R R1 B Q1 Q2. destruct (alloc_new qmax qdamp rmin rmax bin s (reach_inv _ _ _ R) R1 B Q1 Q2) as (s' & d & E & S1 & _ & C & _). exists s', d. split; auto. split; auto. split; auto.
  destruct (new_set_reads look l s (OAlloc qmax qdamp rmin rmax bin) s' d R E C) as (V1 & V2 & V3). rewrite V1, V2, V3. revert E.
  unfold alloc. destruct (Rlt_dec rmax rmin); [lra|]. destruct (Rlt_dec rmin 0); [lra|]. destruct (Rlt_dec rmax 0); [lra|].
  destruct (Z.leb_spec bin 1); [lia|]. destruct (Rlt_dec qmax 0); [lra|]. destruct (Rlt_dec qdamp 0); [lra|]. cbv zeta. intros E.
  pose proof (add_set_is _ _ _ _ E) as A. rewrite S1 in A. cbn [s_sets bump] in A. apply last_app in A.
  match type of A with _ = sel_all_from 0 ?l ?d0 => pose proof (sel_all_keeps l d0 0%nat) as (K1 & K2 & K3 & K4 & K5 & K6 & K7 & K8 & K9 & K10) end.
  rewrite <- A in *. unfold fresh_set. rewrite K1, K2, K3, K4, K5, K6, K7, K8, K9, K10. cbn. rewrite repeat_length. repeat split. lia.
Qed.

(** ** references before anything is loaded *)
Definition clean (s : session) : Prop :=
  (s_curphase s = None -> (forall v, v_elems (s_vec s v) = []) /\ (forall v, of_set v = false -> s_sca s v = None)) /\
  (s_curset s = None -> forall v, of_set v = true -> s_sca s v = None).
Lemma init_clean : clean init.
Proof. split; auto. Qed.

Lemma with_args_ub s ip ij ai f s' : inv s -> (forall p, f p <> UB) -> with_args s ip ij ai f = (s', UB) ->
  exists d, cur_set s d /\ 1 <= ip <= Z.of_nat (length (s_phases s)) /\ ~ selected d ip.
Proof.
  intros I F H. unfold with_args in H. destruct (check_sel_args ip ij ai s) as [[d p]| | |] eqn:E; try discriminate.
  destruct (f p) eqn:G; try discriminate. exfalso. eapply F; eauto. eapply check_ub; eauto.
Qed.

Lemma setvar_live h x s p : inv s -> In p (s_phases s) -> (forall a l, ref_of h s = Ok (Some (a, l)) -> a = ph_addr p /\ loc_ok p l = true) -> ref_of h s <> UB -> snd (setvar h x s) <> UB.
Proof.
  intros (I & _) P A B. unfold setvar. destruct (ref_of h s) as [[[a l]|]| | |]; try discriminate; try congruence.
  destruct (A a l eq_refl) as [-> L]. rewrite (load_phase s p l I P L). discriminate.
Qed.

Lemma setvar_now_ub v x s s' : inv s -> setvar_now v x s = (s', UB) -> s_curphase s = None \/ s_curset s = None.
Proof.
  intros I H. destruct (s_curphase s) as [a|] eqn:CP; auto. destruct (s_curset s) as [b|] eqn:CS; auto. exfalso.
  pose proof I as (I0 & [C1 C2] & D). rewrite CP in C1. unfold cs_ok in D. rewrite CS in D. destruct D as [D1 D2].
  apply in_map_iff in C1. destruct C1 as (p & <- & P). apply in_map_iff in D1. destruct D1 as (d & <- & DI). destruct (C2 p P CP) as (R1 & R2 & R3).
  destruct v as [n|[n i]]; cbn [setvar_now] in H.
  - unfold setvar in H. cbn [ref_of] in H. destruct (of_set n) eqn:O.
    + rewrite (D2 n O), (load_set s d) in H; auto. discriminate. destruct n; auto; discriminate.
    + rewrite (R3 n O), (load_phase s p) in H; auto. discriminate. destruct n; auto; discriminate.
  - assert (E : v_elems (s_vec s n) = map (fun k => Some (ph_addr p, vloc n k)) (seq 0 (Z.to_nat (vsize n p)))).
    { destruct n; cbn [vsize vloc]. rewrite R1. reflexivity. rewrite R2, Nat2Z.id. reflexivity. }
    unfold get_ref in H. cbv zeta in H. rewrite E, map_length, seq_length in H. destruct (_ =? 0); [discriminate|]. destruct (_ || _) eqn:B; [discriminate|].
    apply orb_false_iff in B. destruct B as [B1 B2]. apply Z.ltb_ge in B1, B2.
    assert (VS : 0 <= vsize n p) by (destruct n; cbn; lia).
    unfold setvar in H. cbn [ref_of] in H. cbv zeta in H. rewrite Nat.eqb_refl, E, nth_error_map in H.
    rewrite (nth_error_nth' _ 0%nat) in H by (rewrite seq_length; lia). rewrite seq_nth in H by lia. cbn [option_map plus] in H.
    rewrite (load_phase s p) in H; auto. discriminate. apply vloc_ok. lia.
Qed.

Lemma step_ub look o s s' : inv s -> step look o s = (s', UB) ->
  (exists ip ij d, is_sel_call o = Some (ip, ij) /\ cur_set s d /\ 1 <= ip <= Z.of_nat (length (s_phases s)) /\ ~ selected d ip) \/
  (is_setvar o = true /\ (s_phases s = [] \/ s_sets s = [])).
Proof.
  intros I H. pose proof I as (I0 & C & D). destruct o; cbn [step] in H.
  - exfalso. eapply (proj2 (alloc_inv _ _ _ _ _ s I)). rewrite H. auto.
  - exfalso. eapply (proj2 (read_data_inv _ s I)). rewrite H. auto.
  - exfalso. eapply (proj2 (read_struct_inv _ s I)). rewrite H. auto.
  - discriminate.
  - exfalso. eapply (proj2 (setphase_inv _ s I0 D (or_introl C))). rewrite H. auto.
  - exfalso. eapply (proj2 (setdata_inv _ s I0 C (or_introl D))). rewrite H. auto.
  - exfalso. eapply (proj2 (psel_inv _ s I)). rewrite H. auto.
  - exfalso. eapply (proj2 (pdesel_inv _ s I)). rewrite H. auto.
  - left. apply with_args_ub in H; auto. destruct H as (d & H). exists ip, ij, d. split; auto. intros p. destruct (look smb); discriminate.
  - left. apply with_args_ub in H; auto. destruct H as (d & H). exists ip, ij, d. split; auto. discriminate.
  - left. apply with_args_ub in H; auto. destruct H as (d & H). exists ip, ij, d. split; auto. discriminate.
  - left. apply with_args_ub in H; auto. destruct H as (d & H). exists ip, ij, d. split; auto. discriminate.
  - exfalso. eapply (proj2 (range_inv _ _ _ s I)). rewrite H. auto.
  - right. split; auto. apply setvar_now_ub in H; auto. destruct C as [C _]. unfold cs_ok in D. destruct H as [H|H]; rewrite H in *; auto.
Qed.

Lemma check_no_fuel ip ij ai s : check_sel_args ip ij ai s <> NoFuel.
Proof.
  unfold check_sel_args. destruct (s_curset s); try discriminate. destruct (find_set s a); try discriminate. destruct (one_based _ _); try discriminate.
  destruct (_ && _); try discriminate. destruct (nth_error _ _) as [[pa|]|]; try discriminate. destruct (find_phase s pa); try discriminate. destruct (_ || _); discriminate.
Qed.
Lemma with_args_no_fuel s ip ij ai f s' : (forall p, f p <> NoFuel) -> with_args s ip ij ai f <> (s', NoFuel).
Proof.
  intros F H. unfold with_args in H. destruct (check_sel_args ip ij ai s) as [[d p]| | |] eqn:E; try discriminate.
  destruct (f p) eqn:G; try discriminate. eapply F; eauto. eapply check_no_fuel; eauto.
Qed.

Lemma step_no_fuel look o s s' : step look o s <> (s', NoFuel).
Proof.
  destruct o; cbn [step]; try discriminate.
  - unfold alloc, add_set, setdata. repeat (match goal with |- context[if ?b then _ else _] => destruct b end; try discriminate). cbv zeta. destruct (one_based _ _); try discriminate. destruct (nth_error _ _); discriminate.
  - destruct r; cbn; try discriminate. unfold add_set, setdata. destruct (one_based _ _); try discriminate. destruct (nth_error _ _); discriminate.
  - destruct r; cbn; try discriminate. unfold setphase. destruct (one_based _ _); try discriminate. destruct (nth_error _ _); discriminate.
  - unfold setphase. destruct (one_based _ _); try discriminate. destruct (nth_error _ _); discriminate.
  - unfold setdata. destruct (one_based _ _); try discriminate. destruct (nth_error _ _); discriminate.
  - unfold psel. repeat (match goal with |- context[match ?b with _ => _ end] => destruct b end; try discriminate).
  - unfold pdesel. repeat (match goal with |- context[match ?b with _ => _ end] => destruct b end; try discriminate).
  - apply with_args_no_fuel. intros p. destruct (look smb); discriminate.
  - apply with_args_no_fuel. intros p. discriminate.
  - apply with_args_no_fuel. intros p. discriminate.
  - apply with_args_no_fuel. intros p. discriminate.
  - unfold range. destruct (Rle_dec _ _); try discriminate. destruct (_ =? _).
    + assert (H : forall l, snd (range_all rmin rmax l) <> NoFuel). { induction l as [|d l IH]; cbn; try discriminate. destruct (ds_range _ _ _); try discriminate. destruct (range_all _ _ l); auto. }
      specialize (H (firstn (Z.to_nat (s_nset s)) (s_sets s))). destruct (range_all _ _ _). intros E. inversion E; subst. apply H; auto.
    + destruct (one_based _ _); try discriminate. destruct (nth_error _ _); try discriminate. destruct (ds_range _ _ _); discriminate.
  - assert (LD : forall a l, load s a l <> NoFuel). { intros a l. unfold load. destruct (find_phase s a). destruct (loc_ok _ _); discriminate. destruct (find_set s a). destruct (ds_loc_ok l); discriminate. discriminate. }
    assert (RF : forall h, ref_of h s <> NoFuel). { intros h. unfold ref_of. destruct h; try discriminate. cbv zeta. destruct (Nat.eqb _ _); try discriminate. destruct (nth_error _ _); discriminate. }
    assert (SV : forall h, setvar h x s <> (s', NoFuel)). { intros h. unfold setvar. specialize (RF h). destruct (ref_of h s) as [[[a l]|]| | |]; try discriminate; try congruence. specialize (LD a l). destruct (load s a l); try discriminate. congruence. }
    destruct v as [n|[n i]]; cbn [setvar_now]; auto. unfold get_ref. cbv zeta. destruct (_ =? 0); try discriminate. destruct (_ || _); try discriminate. auto.
Qed.

(** ** histories without deselection *)
Definition all_sel (s : session) : Prop := forall d, In d (s_sets s) -> ds_psel d = map (fun p => Some (ph_addr p)) (s_phases s).

Lemma all_sel_sets s phs sets : all_sel s -> map ph_addr phs = map ph_addr (s_phases s) -> incl (map ds_psel sets) (map ds_psel (s_sets s)) ->
  forall d, In d sets -> ds_psel d = map (fun p => Some (ph_addr p)) phs.
Proof.
  intros A E L d D. apply (in_map ds_psel) in D. apply L in D. apply in_map_iff in D. destruct D as (d' & D1 & D2). rewrite <- D1, (A d' D2).
  rewrite <- !(map_map ph_addr Some), E. auto.
Qed.

Lemma add_set_all_sel d s : inv s -> ds_psel d = [] -> all_sel s -> all_sel (fst (add_set d s)).
Proof.
  intros I P A. destruct (add_set_new d s I P) as (s' & d' & E & H1 & H2 & H3 & H4 & _). rewrite E. cbn [fst]. intros x X. rewrite H2. rewrite H1, in_app_iff in X.
  destruct X as [X|[<-|[]]]; auto.
Qed.

Lemma step_all_sel look o s : inv s -> is_pdesel o = false -> all_sel s -> all_sel (fst (step look o s)).
Proof.
  intros I NP A. pose proof I as (I0 & C & D). destruct o; cbn [step]; try discriminate.
  - unfold alloc. repeat (match goal with |- context[if ?b then _ else _] => destruct b end; [auto; fail|]). cbv zeta. apply add_set_all_sel; auto. apply bump_inv; auto.
  - destruct r; auto. cbn [read_data]. apply add_set_all_sel; auto. apply bump_inv; auto.
  - destruct r as [e|c]; auto. destruct (read_struct_new c s I) as (s' & p & E & H1 & _ & _ & _ & H2 & _). rewrite E. cbn [fst]. intros d X. apply (in_map ds_psel) in X. rewrite H2 in X.
    apply in_map_iff in X. destruct X as (d' & <- & X). rewrite (A d' X), H1, map_app. auto.
  - cbn. intros d [].
  - unfold setphase. destruct (one_based _ _); auto. destruct (nth_error _ _); auto.
  - unfold setdata. destruct (one_based _ _); auto. destruct (nth_error _ _); auto.
  - unfold psel. destruct (s_curset s) as [a|] eqn:CS; auto. destruct (find_set s a) as [d|] eqn:F; auto. destruct (ip =? ALL).
    + intros x X. apply in_map_iff in X. destruct X as (y & <- & Y). cbn [s_phases on_set fst]. destruct (Nat.eqb _ _); auto.
    + pose proof (one_based_spec ip (s_nphase s)) as O. destruct (one_based ip (s_nphase s)) as [k|]; auto. destruct (nth_error (s_phases s) k) as [p|] eqn:K; auto.
      intros x X. apply in_map_iff in X. destruct X as (y & <- & Y). cbn [s_phases on_set fst]. destruct (Nat.eqb _ _); auto.
      assert (LT : (k < length (s_phases s))%nat) by (apply nth_error_Some; congruence).
      assert (LE : length (ds_psel y) = length (s_phases s)) by (rewrite (A y Y); apply map_length).
      rewrite selphase_psel by lia. destruct (Nat.ltb_spec k (length (ds_psel y))); [|lia]. rewrite upd_same; auto. rewrite (A y Y), nth_error_map, K. auto.
  - unfold select_type, with_args. destruct (check_sel_args _ _ _ _) as [[d p]| | |]; auto. destruct (look smb); auto. intros x X. apply in_map_iff in X. destruct X as (y & <- & Y). cbn [s_phases on_set fst].
    destruct (Nat.eqb _ _); auto. rewrite (proj2 (proj2 (ds_ignore_keeps _ _ _ _))); auto.
  - unfold select_index, with_args. destruct (check_sel_args _ _ _ _) as [[d p]| | |]; auto. intros x X. apply in_map_iff in X. destruct X as (y & <- & Y). cbn [s_phases on_set fst].
    destruct (Nat.eqb _ _); auto. rewrite (proj2 (proj2 (ds_ignore_keeps _ _ _ _))); auto.
  - unfold select_all, with_args. destruct (check_sel_args _ _ _ _) as [[d p]| | |]; auto. intros x X. apply in_map_iff in X. destruct X as (y & <- & Y). cbn [s_phases on_set fst].
    destruct (Nat.eqb _ _); auto. rewrite (proj2 (proj2 (ds_ignore_keeps _ _ _ _))); auto.
  - unfold select_none, with_args. destruct (check_sel_args _ _ _ _) as [[d p]| | |]; auto. intros x X. apply in_map_iff in X. destruct X as (y & <- & Y). cbn [s_phases on_set fst].
    destruct (Nat.eqb _ _); auto. rewrite (proj2 (proj2 (ds_ignore_keeps _ _ _ _))); auto.
  - unfold range. destruct (Rle_dec _ _); auto. destruct (is =? ALL).
    + destruct (range_all_keeps rmin rmax (firstn (Z.to_nat (s_nset s)) (s_sets s))) as (_ & _ & K). destruct (range_all _ _ _) as [l o]. cbn [fst] in *.
      unfold all_sel. cbn [set_sets s_sets s_phases]. eapply all_sel_sets; eauto. rewrite map_app, K, <- map_app, firstn_skipn. apply incl_refl.
    + destruct (one_based _ _); auto. destruct (nth_error _ _) as [d|] eqn:N; auto. destruct (ds_range rmin rmax d) eqn:E; auto.
      destruct (ds_range_keeps _ _ _ _ E) as (_ & _ & E3). unfold all_sel. cbn [fst set_sets s_sets s_phases]. eapply all_sel_sets; eauto.
      rewrite map_upd, E3, upd_same. apply incl_refl. rewrite nth_error_map, N. auto.
  - assert (ST : forall a l, all_sel (store a l x s)).
    { intros a l. unfold all_sel. cbn [store s_sets s_phases]. eapply all_sel_sets; eauto. rewrite map_map. apply map_ext. intros q; destruct (Nat.eqb _ _); auto.
      rewrite map_map. intros q Q. apply in_map_iff in Q. destruct Q as (y & <- & Y). apply in_map_iff. exists y. destruct (Nat.eqb _ _); auto. }
    destruct v as [n|[n i]]; cbn [setvar_now]; [|destruct (get_ref n i s); auto]; unfold setvar.
    + destruct (ref_of _ s) as [[[a l]|]| | |]; auto. destruct (load s a l); auto. apply ST.
    + destruct (ref_of _ s) as [[[a' l]|]| | |]; auto. destruct (load s a' l); auto. apply ST.
Qed.

Lemma all_sel_selected s d ip : all_sel s -> In d (s_sets s) -> 1 <= ip <= Z.of_nat (length (s_phases s)) -> selected d ip.
Proof.
  intros A D B. split. lia. destruct (nth_error (s_phases s) (Z.to_nat (ip - 1))) as [p|] eqn:N; [|apply nth_error_None in N; lia].
  exists (ph_addr p). rewrite (A d D), nth_error_map, N. auto.
Qed.

Lemma setphase_clean ip s : clean s -> clean (fst (setphase ip s)).
Proof.
  intros [K1 K2]. unfold setphase. destruct (one_based _ _); [|split; auto]. destruct (nth_error _ _); [|split; auto]. split; cbn [fst s_curphase s_curset s_sca]. discriminate.
  intros CS v V. specialize (K2 CS v V). destruct v; auto; discriminate.
Qed.
Lemma setdata_clean is s : clean s -> clean (fst (setdata is s)).
Proof.
  intros [K1 K2]. unfold setdata. destruct (one_based _ _); [|split; auto]. destruct (nth_error _ _); [|split; auto]. split; cbn [fst s_curphase s_curset s_sca s_vec]; [|discriminate].
  intros CS. specialize (K1 CS). destruct K1 as [K1 K3]. split; auto. intros v V. specialize (K3 v V). destruct v; auto; discriminate.
Qed.
Lemma add_set_clean d s : clean s -> clean (fst (add_set d s)).
Proof. intros K. apply setdata_clean. exact K. Qed.

Lemma step_clean look o s : is_reset o = false -> clean s -> clean (fst (step look o s)).
Proof.
  intros NR K. destruct o; cbn [step]; try discriminate.
  - unfold alloc. repeat (match goal with |- context[if ?b then _ else _] => destruct b end; [auto; fail|]). cbv zeta. apply add_set_clean; auto.
  - destruct r; auto. apply add_set_clean; auto.
  - destruct r; auto. apply setphase_clean; auto.
  - apply setphase_clean; auto.
  - apply setdata_clean; auto.
  - unfold psel. destruct (s_curset s); auto. destruct (find_set s a); auto. destruct (ip =? ALL); auto. destruct (one_based _ _); auto. destruct (nth_error _ _); auto.
  - unfold pdesel. destruct (s_curset s); auto. destruct (find_set s a); auto. destruct (ip =? ALL); auto. destruct (one_based _ _); auto. destruct (_ <? _)%nat; auto.
  - unfold select_type, with_args. destruct (check_sel_args _ _ _ _) as [[d p]| | |]; auto. destruct (look smb); auto.
  - unfold select_index, with_args. destruct (check_sel_args _ _ _ _) as [[d p]| | |]; auto.
  - unfold select_all, with_args. destruct (check_sel_args _ _ _ _) as [[d p]| | |]; auto.
  - unfold select_none, with_args. destruct (check_sel_args _ _ _ _) as [[d p]| | |]; auto.
  - unfold range. destruct (Rle_dec _ _); auto. destruct (is =? ALL). destruct (range_all _ _ _); auto. destruct (one_based _ _); auto. destruct (nth_error _ _); auto. destruct (ds_range _ _ _); auto.
  - destruct v as [n|[n i]]; cbn [setvar_now]; [|destruct (get_ref n i s); auto]; unfold setvar.
    + destruct (ref_of _ s) as [[[a l]|]| | |]; auto. destruct (load s a l); auto.
    + destruct (ref_of _ s) as [[[a' l]|]| | |]; auto. destruct (load s a' l); auto.
Qed.

Lemma clean_setvar v x s s' : inv s -> clean s -> setvar_now v x s <> (s', UB).
Proof.
  intros I [K1 K2] H. pose proof I as (I0 & [C1 C2] & D).
  destruct v as [n|[n i]]; cbn [setvar_now] in H.
  - unfold setvar in H. cbn [ref_of] in H. destruct (of_set n) eqn:O.
    + destruct (s_curset s) as [b|] eqn:CS; [|rewrite (K2 eq_refl n O) in H; discriminate].
      unfold cs_ok in D. rewrite CS in D. destruct D as [D1 D2]. apply in_map_iff in D1. destruct D1 as (d & <- & DI).
      rewrite (D2 n O), (load_set s d) in H; auto. discriminate. destruct n; auto; discriminate.
    + destruct (s_curphase s) as [b|] eqn:CP; [|destruct (K1 eq_refl) as [_ K3]; rewrite (K3 n O) in H; discriminate].
      apply in_map_iff in C1. destruct C1 as (p & <- & P). destruct (C2 p P eq_refl) as (R1 & R2 & R3).
      rewrite (R3 n O), (load_phase s p) in H; auto. discriminate. destruct n; auto; discriminate.
  - destruct (s_curphase s) as [b|] eqn:CP; [|destruct (K1 eq_refl) as [K3 _]; unfold get_ref in H; rewrite (K3 n) in H; discriminate].
    apply in_map_iff in C1. destruct C1 as (p & <- & P). destruct (C2 p P eq_refl) as (R1 & R2 & R3).
    assert (E : v_elems (s_vec s n) = map (fun k => Some (ph_addr p, vloc n k)) (seq 0 (Z.to_nat (vsize n p)))).
    { destruct n; cbn [vsize vloc]. rewrite R1. reflexivity. rewrite R2, Nat2Z.id. reflexivity. }
    unfold get_ref in H. cbv zeta in H. rewrite E, map_length, seq_length in H. destruct (_ =? 0); [discriminate|]. destruct (_ || _) eqn:B; [discriminate|].
    apply orb_false_iff in B. destruct B as [B1 B2]. apply Z.ltb_ge in B1, B2.
    assert (VS : 0 <= vsize n p) by (destruct n; cbn; lia).
    unfold setvar in H. cbn [ref_of] in H. cbv zeta in H. rewrite Nat.eqb_refl, E, nth_error_map in H.
    rewrite (nth_error_nth' _ 0%nat) in H by (rewrite seq_length; lia). rewrite seq_nth in H by lia. cbn [option_map plus] in H.
    rewrite (load_phase s p) in H; auto. discriminate. apply vloc_ok. lia.
Qed.

Lemma run_safe look l : forall s, inv s -> all_sel s -> Forall (fun o => is_pdesel o = false) l ->
  (clean s /\ Forall (fun o => is_reset o = false) l) \/ Forall (fun o => is_setvar o = false) l ->
  exists t, run look l s = Ok t.
Proof.
  induction l as [|o l IH]; intros s I A NP H; cbn. eauto. inversion NP; subst.
  assert (NU : snd (step look o s) <> UB).
  { intros U. destruct (step look o s) as [s' r] eqn:E. cbn in U. subst r. destruct (step_ub look o s s' I E) as [(ip & ij & d & _ & [D _] & B & N)|[SV _]].
    - apply N. eapply all_sel_selected; eauto.
    - destruct H as [[K _]|H]; [|inversion H; congruence]. destruct o; try discriminate. cbn [step] in E. eapply clean_setvar; eauto. }
  assert (R : exists t, run look l (fst (step look o s)) = Ok t).
  { apply IH; auto. apply step_inv; auto. apply step_all_sel; auto. destruct H as [[K H]|H]; inversion H; subst; auto. left. split; auto. apply step_clean; auto. }
  destruct (step look o s) as [s' [u|e| |]]; cbn in *; auto. tauto.
Qed.

Lemma no_deselect_safe look l : Forall (fun o => is_pdesel o = false) l ->
  Forall (fun o => is_reset o = false) l \/ Forall (fun o => is_setvar o = false) l ->
  exists t, run look l init = Ok t.
Proof. intros P H. apply run_safe; auto. apply init_inv. intros d []. destruct H; auto. left. split; auto. apply init_clean. Qed.

(** a session that has never been reset and has no phase: no references *)
Lemma run_clean look l : forall s t, clean s -> Forall (fun o => is_reset o = false) l -> run look l s = Ok t -> clean t.
Proof.
  induction l as [|o l IH]; cbn; intros s t K N H. inversion H; subst; auto. inversion N; subst. pose proof (step_clean look o s H2 K) as J.
  destruct (step look o s) as [s' [u|e| |]]; try discriminate; eapply IH; eauto.
Qed.
Lemma unassigned_before_load look l s : reachable look l s -> Forall (fun o => is_reset o = false) l ->
  (s_phases s = [] -> (forall v i, get_ref v i s = Err ErrUnassigned) /\
                      (forall v lo, phase_var v = Some lo -> getvar (HSca v) s = Err ErrUnassigned /\ forall x, setvar (HSca v) x s = (s, Err ErrUnassigned))) /\
  (s_sets s = [] -> forall v lo, set_var v = Some lo -> getvar (HSca v) s = Err ErrUnassigned /\ forall x, setvar (HSca v) x s = (s, Err ErrUnassigned)).
Proof.
  intros R N. pose proof (reach_inv _ _ _ R) as (I & [C1 C2] & D). destruct (run_clean look l init s init_clean N R) as [K1 K2]. split; intros E.
  - assert (CP : s_curphase s = None). { destruct (s_curphase s); auto. rewrite E in C1. destruct C1. } destruct (K1 CP) as [K3 K4]. split.
    + intros v i. unfold get_ref. rewrite K3. auto.
    + intros v lo V. destruct (phase_var_scalar v lo V) as [V1 _]. unfold getvar, setvar. cbn [ref_of]. rewrite (K4 v V1). auto.
  - assert (CP : s_curset s = None). { unfold cs_ok in D. destruct (s_curset s); auto. rewrite E in D. destruct D as [[] _]. }
    intros v lo V. destruct (set_var_scalar v lo V) as [V1 _]. unfold getvar, setvar. cbn [ref_of]. rewrite (K2 CP v V1). auto.
Qed.

(** * effect of psel, pdesel, setphase, setdata; rejected alloc *)
Lemma on_set_only s d f sel : core s -> In d (s_sets s) -> f d = ds_set_psel sel d -> only_selection s (on_set (ds_addr d) f s) d sel.
Proof.
  intros I D F. unfold on_set. split; [|split]; cbn [s_sets]. reflexivity. apply map_length.
  intros k e e' K K'. rewrite nth_error_map, K in K'. cbn in K'. injection K' as <-. pose proof (nth_error_In _ _ K) as E. split.
  - intros N. destruct (Nat.eqb_spec (ds_addr e) (ds_addr d)); auto. exfalso. apply N. apply (set_inj s I); auto.
  - intros ->. rewrite Nat.eqb_refl, F. auto.
Qed.

Lemma upd_one_entry k ip e (l : list (option addr)) : k = Z.to_nat (ip - 1) -> (k < length l)%nat -> one_entry l (upd k e l) ip e.
Proof.
  intros -> K. split. apply upd_len. split. rewrite upd_nth, Nat.eqb_refl. apply nth_error_Some in K. destruct (nth_error l _); tauto.
  intros j J. rewrite upd_nth. destruct (Nat.eqb_spec (Z.to_nat (ip - 1)) j); congruence.
Qed.

Lemma psel_effect s d : inv s -> cur_set s d ->
  (forall ip p, phase_no s ip p -> exists s' sel, psel ip s = (s', Ok tt) /\ only_selection s s' d sel /\ one_entry (ds_psel d) sel ip (Some (ph_addr p))) /\
  (forall ip p, phase_no s ip p -> exists s' sel, pdesel ip s = (s', Ok tt) /\ only_selection s s' d sel /\ one_entry (ds_psel d) sel ip None) /\
  (exists s', psel ALL s = (s', Ok tt) /\ only_selection s s' d (map (fun p => Some (ph_addr p)) (s_phases s))) /\
  (exists s', pdesel ALL s = (s', Ok tt) /\ only_selection s s' d (map (fun _ => None) (s_phases s))) /\
  (forall ip, ip <> ALL -> (forall p, ~ phase_no s ip p) -> psel ip s = (s, Err ErrUnassigned) /\ pdesel ip s = (s, Err ErrUnassigned)).
Proof.
  intros (I & _) [D1 D2]. unfold psel, pdesel. rewrite D2, (set_found s d I D1). pose proof (psel_in s d I D1) as PS. apply Forall2_length in PS. rewrite map_length in PS.
  pose proof (i_np s I) as NP.
  assert (PN : forall ip p, phase_no s ip p -> 1 <= ip <= s_nphase s /\ nth_error (s_phases s) (Z.to_nat (ip - 1)) = Some p /\ (Z.to_nat (ip - 1) < length (ds_psel d))%nat).
  { intros ip p [P1 P2]. assert (LT : (Z.to_nat (ip - 1) < length (s_phases s))%nat) by (apply nth_error_Some; congruence). split. lia. split; auto. lia. }
  split; [|split; [|split; [|split]]].
  - intros ip p P. destruct (PN ip p P) as (B & N & LT). destruct (Z.eqb_spec ip ALL); [unfold ALL in *; lia|]. rewrite one_based_in, N by auto.
    eexists. exists (upd (Z.to_nat (ip - 1)) (Some (ph_addr p)) (ds_psel d)). split; [reflexivity|]. split; [|apply upd_one_entry; auto].
    apply on_set_only; auto. pose proof (selphase_psel (Z.to_nat (ip - 1)) (ph_addr p) d ltac:(lia)) as E. destruct (Nat.ltb_spec (Z.to_nat (ip - 1)) (length (ds_psel d))); [|lia].
    unfold ds_selphase, ds_set_psel in *. cbn [ds_psel] in E. rewrite E. auto.
  - intros ip p P. destruct (PN ip p P) as (B & N & LT). destruct (Z.eqb_spec ip ALL); [unfold ALL in *; lia|]. rewrite one_based_in by auto.
    destruct (Nat.ltb_spec (Z.to_nat (ip - 1)) (length (ds_psel d))); [|lia].
    eexists. exists (upd (Z.to_nat (ip - 1)) None (ds_psel d)). split; [reflexivity|]. split; [|apply upd_one_entry; auto]. apply on_set_only; auto.
  - eexists. split; [reflexivity|]. apply on_set_only; auto.
  - eexists. split; [reflexivity|]. apply on_set_only; auto. f_equal. clear - PS. revert PS. generalize (ds_psel d). induction (s_phases s); intros [|x l0] H; cbn in *; auto; try discriminate. f_equal. apply IHl. lia.
  - intros ip NA NP1. destruct (Z.eqb_spec ip ALL); [tauto|]. rewrite one_based_out; auto.
    destruct (Z.ltb_spec ip 1); auto. destruct (Z.ltb_spec (s_nphase s) ip); auto. exfalso.
    destruct (nth_error (s_phases s) (Z.to_nat (ip - 1))) as [p|] eqn:E; [|apply nth_error_None in E; lia]. apply (NP1 p). split; auto.
Qed.

Lemma setphase_effect s ip : inv s ->
  (forall p, phase_no s ip p -> exists s', setphase ip s = (s', Ok tt) /\ cur_phase s' p /\ s_phases s' = s_phases s /\ s_sets s' = s_sets s /\ s_curset s' = s_curset s) /\
  ((forall p, ~ phase_no s ip p) -> setphase ip s = (s, Err ErrUnassigned)) /\
  (forall d, set_no s ip d -> exists s', setdata ip s = (s', Ok tt) /\ cur_set s' d /\ s_phases s' = s_phases s /\ s_sets s' = s_sets s /\ s_curphase s' = s_curphase s) /\
  ((forall d, ~ set_no s ip d) -> setdata ip s = (s, Err ErrUnassigned)).
Proof.
  intros (I & _). pose proof (i_np s I) as NP. pose proof (i_ns s I) as NS. unfold setphase, setdata. split; [|split; [|split]].
  - intros p [P1 P2]. assert (LT : (Z.to_nat (ip - 1) < length (s_phases s))%nat) by (apply nth_error_Some; congruence). rewrite one_based_in, P2 by lia.
    eexists. split; [reflexivity|]. cbn. repeat split; auto. cbn. eapply nth_error_In; eauto.
  - intros N. rewrite one_based_out; auto. destruct (Z.ltb_spec ip 1); auto. destruct (Z.ltb_spec (s_nphase s) ip); auto. exfalso.
    destruct (nth_error (s_phases s) (Z.to_nat (ip - 1))) as [p|] eqn:E; [|apply nth_error_None in E; lia]. apply (N p). split; auto.
  - intros p [P1 P2]. assert (LT : (Z.to_nat (ip - 1) < length (s_sets s))%nat) by (apply nth_error_Some; congruence). rewrite one_based_in, P2 by lia.
    eexists. split; [reflexivity|]. cbn. repeat split; auto. cbn. eapply nth_error_In; eauto.
  - intros N. rewrite one_based_out; auto. destruct (Z.ltb_spec ip 1); auto. destruct (Z.ltb_spec (s_nset s) ip); auto. exfalso.
    destruct (nth_error (s_sets s) (Z.to_nat (ip - 1))) as [p|] eqn:E; [|apply nth_error_None in E; lia]. apply (N p). split; auto.
Qed.

Lemma alloc_rejects qmax qdamp rmin rmax bin s : ~ alloc_args qmax qdamp rmin rmax bin -> alloc qmax qdamp rmin rmax bin s = (s, Err ErrValue).
Proof.
  intros N. unfold alloc. destruct (Rlt_dec rmax rmin); auto. destruct (Rlt_dec rmin 0); auto. destruct (Rlt_dec rmax 0); auto. destruct (Z.leb_spec bin 1); auto.
  destruct (Rlt_dec qmax 0); auto. destruct (Rlt_dec qdamp 0); auto. exfalso. apply N. repeat split; try lra. lia.
Qed.
