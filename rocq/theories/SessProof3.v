(** Proofs about the selection of atoms for partial PDFs. *)
From Coq Require Import List ZArith Reals Ascii Bool Lia Lra.
From Verif Require Import Base SessModel SessSpec SessProof SessProof2.
Import ListNotations.
Local Open Scope Z_scope.

Definition ign_list (d : dset) (side : ascii) (pa : addr) : list nat := (if Ascii.eqb side "i" then ds_igni d else ds_ignj d) pa.

Lemma in_set_ins a b l : In a (set_ins b l) <-> a = b \/ In a l.
Proof.
  unfold set_ins. destruct (existsb (Nat.eqb b) l) eqn:E; cbn; [|intuition]. apply existsb_exists in E. destruct E as (x & X & Y). apply Nat.eqb_eq in Y. subst x. split; auto. intros [->|]; auto.
Qed.
Lemma in_set_del a b l : In a (set_del b l) <-> a <> b /\ In a l.
Proof. unfold set_del. rewrite filter_In. destruct (Nat.eqb_spec b a); cbn; intuition congruence. Qed.

Lemma fold_type_in (t : tyid) sel (types : list tyid) a l : (a < length types)%nat ->
  In a (fold_left (fun l k => match nth_error types k with Some u => if list_eq_dec ascii_dec t u then sel_op sel k l else l | None => l end) (seq 0 (length types)) l)
  <-> match nth_error types a with Some u => if list_eq_dec ascii_dec t u then sel = false else In a l | None => In a l end.
Proof.
  intros A.
  assert (G : forall n l, In a (fold_left (fun l k => match nth_error types k with Some u => if list_eq_dec ascii_dec t u then sel_op sel k l else l | None => l end) (seq 0 n) l)
    <-> if (a <? n)%nat then match nth_error types a with Some u => if list_eq_dec ascii_dec t u then sel = false else In a l | None => In a l end else In a l).
  { clear A l. induction n; intros l. cbn. tauto. rewrite seq_S, fold_left_app. cbn [fold_left plus]. specialize (IHn l).
    set (F := fold_left _ (seq 0 n) l) in *.
    destruct (Nat.eq_dec a n) as [->|NE].
    - destruct (Nat.ltb_spec n n); [lia|]. destruct (Nat.ltb_spec n (S n)); [|lia].
      destruct (nth_error types n) as [u|]; [|auto].
      destruct (list_eq_dec ascii_dec t u) as [->|N]; [|auto].
      destruct sel; cbn. rewrite in_set_del. intuition congruence. rewrite in_set_ins. intuition.
    - assert (E : (a <? S n)%nat = (a <? n)%nat). { destruct (Nat.ltb_spec a (S n)), (Nat.ltb_spec a n); auto; lia. } rewrite E, <- IHn.
      destruct (nth_error types n) as [u|]; [|tauto]. destruct (list_eq_dec ascii_dec t u); [|tauto]. destruct sel; cbn. rewrite in_set_del. tauto. rewrite in_set_ins. tauto. }
  rewrite G. apply Nat.ltb_lt in A. rewrite A. tauto.
Qed.

Lemma fold_none_in n a l : In a (fold_left (fun l k => set_ins k l) (seq 0 n) l) <-> (a < n)%nat \/ In a l.
Proof.
  revert l. induction n; intros l. cbn. intuition lia. rewrite seq_S, fold_left_app. cbn [fold_left plus]. rewrite in_set_ins, IHn. intuition lia.
Qed.

Lemma check_complete ip ij ai s d p : inv s -> cur_set s d -> phase_no s ip p -> selected d ip -> (ij = "i" \/ ij = "j")%char -> 1 <= ai <= ph_natoms p ->
  check_sel_args ip ij ai s = Ok (d, p).
Proof.
  intros (I & _) [D1 D2] [P1 P2] [_ [b B]] IJ A. unfold check_sel_args. rewrite D2, (set_found s d I D1).
  pose proof (psel_in s d I D1) as PS. apply Forall2_nth in PS. destruct PS as [LE PS]. rewrite map_length in LE.
  assert (LT : (Z.to_nat (ip - 1) < length (s_phases s))%nat) by (apply nth_error_Some; congruence). rewrite one_based_in by lia.
  assert (E : negb (Ascii.eqb ij "i") && negb (Ascii.eqb ij "j") = false). { destruct IJ as [->| ->]; auto. } rewrite E, B.
  specialize (PS _ (ph_addr p) _ (eq_trans (nth_error_map _ _ _) (eq_trans (f_equal (option_map ph_addr) P2) eq_refl)) B). destruct PS as [PS|PS]; [discriminate|]. injection PS as ->.
  rewrite (phase_found s p I) by (eapply nth_error_In; eauto). destruct (Z.ltb_spec ai 1); [lia|]. destruct (Z.ltb_spec (ph_natoms p) ai); [lia|]. auto.
Qed.

Lemma phase_no_in s ip p : phase_no s ip p -> In p (s_phases s).
Proof. intros [_ H]. eapply nth_error_In; eauto. Qed.

Lemma ign_ds_ignore ij pa g d side pb : (ij = "i" \/ ij = "j")%char -> (side = "i" \/ side = "j")%char ->
  ign_list (ds_ignore ij pa g d) side pb = if Ascii.eqb ij side && Nat.eqb pb pa then g (ign_list d side pb) else ign_list d side pb.
Proof.
  intros H1 H2. unfold ign_list, ds_ignore. destruct H1 as [->| ->], H2 as [->| ->]; cbn; auto; destruct (Nat.eqb pb pa); auto.
Qed.

(** effect of one selection call on one data set *)
Definition sel_fun look (o : op) (p : phase) : option (list nat -> list nat) :=
  match o with
  | OSelType _ _ smb sel => match look smb with None => None
      | Some t => Some (fun l => fold_left (fun l k => match nth_error (ph_types p) k with
                                          | Some u => if list_eq_dec ascii_dec t u then sel_op sel k l else l
                                          | None => l end) (seq 0 (length (ph_types p))) l) end
  | OSelIndex _ _ ai sel => Some (sel_op sel (Z.to_nat (ai - 1)))
  | OSelAll _ _ => Some (fun _ => [])
  | OSelNone _ _ => Some (fun l => fold_left (fun l k => set_ins k l) (seq 0 (length (ph_types p))) l)
  | _ => None
  end.
Definition sel_idx (o : op) : Z := match o with OSelIndex _ _ ai _ => ai | _ => 1 end.

Lemma sel_step look o s ip ij : is_sel_call o = Some (ip, ij) ->
  fst (step look o s) = match check_sel_args ip ij (sel_idx o) s with
                        | Ok (d, p) => match sel_fun look o p with Some g => on_set (ds_addr d) (ds_ignore ij (ph_addr p) g) s | None => s end
                        | _ => s end.
Proof.
  destruct o; cbn [is_sel_call]; intros H; inversion H; subst; cbn [step sel_idx sel_fun]; unfold select_type, select_index, select_all, select_none, with_args;
    destruct (check_sel_args _ _ _ _) as [[d p]| | |]; auto. destruct (look smb); auto.
Qed.

(** [names] in terms of [sel_fun] *)
Lemma sel_fun_in look o s d p side a ip ij g l : inv s -> is_sel_call o = Some (ip, ij) -> check_sel_args ip ij (sel_idx o) s = Ok (d, p) -> sel_fun look o p = Some g ->
  ij = side -> (a < length (ph_types p))%nat ->
  (In a (g l) <-> names look s o d p side a false \/ (In a l /\ ~ names look s o d p side a true)).
Proof.
  intros I O C G <- A. destruct (check_ok _ _ _ _ _ _ I C) as (D & P & S & IJ & AI). unfold names.
  destruct o; cbn [is_sel_call] in O; inversion O; subst; cbn [sel_fun sel_idx] in *.
  - destruct (look smb) as [t|] eqn:L; [|discriminate]. injection G as <-. rewrite fold_type_in by auto.
    destruct (nth_error (ph_types p) a) as [u|] eqn:N; [|apply nth_error_None in N; lia].
    destruct (list_eq_dec ascii_dec t u) as [E|E].
    + subst u. split.
      * intros ->. left. split; auto. split; auto. split; auto. split; auto. split; auto. split; auto. split; auto. exists t. auto.
      * intros [(_ & _ & _ & _ & _ & _ & H & _)|[H1 H2]]. auto. destruct sel; auto. exfalso. apply H2. split; auto. split; auto. split; auto. split; auto. split; auto. split; auto. split; auto. exists t. auto.
    + split. intros H. right. split; auto. intros (_ & _ & _ & _ & _ & _ & _ & t' & T1 & T2). congruence.
      intros [(_ & _ & _ & _ & _ & _ & _ & t' & T1 & T2)|[H _]]; auto. congruence.
  - injection G as <-. destruct sel; cbn [sel_op]; rewrite ?in_set_del, ?in_set_ins.
    + split. intros [H1 H2]. right. split; auto. intros (_ & _ & _ & _ & _ & _ & _ & E). apply H1. lia.
      intros [(_ & _ & _ & _ & _ & _ & E & _)|[H1 H2]]. discriminate. split; auto. intros ->. apply H2. repeat (split; auto). lia.
    + split. intros [->|H]. left. repeat (split; auto). lia. right. split; auto. intros (_ & _ & _ & _ & _ & _ & E & _). discriminate.
      intros [(_ & _ & _ & _ & _ & _ & _ & E)|[H _]]; auto. left. lia.
  - injection G as <-. split. intros []. intros [(_ & _ & _ & _ & _ & _ & E)|[_ H]]. discriminate. exfalso. apply H. repeat (split; auto).
  - injection G as <-. rewrite fold_none_in. split; auto. intros _. left. repeat (split; auto).
Qed.

Lemma names_check look s o d p side a on : inv s -> names look s o d p side a on ->
  exists ip g, is_sel_call o = Some (ip, side) /\ check_sel_args ip side (sel_idx o) s = Ok (d, p) /\ sel_fun look o p = Some g.
Proof.
  intros I (D & A & SD & H). destruct o; try tauto; destruct H as (P & S & E & R); subst ij.
  - destruct R as (_ & t & T & _). exists ip. cbn [sel_fun]. rewrite T. eexists. split; [auto|]. split; [|eauto]. apply check_complete; auto. unfold ph_natoms. cbn. lia.
  - destruct R as (_ & ->). exists ip. eexists. split; [auto|]. split; [|cbn; eauto]. apply check_complete; auto. unfold ph_natoms. cbn. lia.
  - exists ip. eexists. split; [auto|]. split; [|cbn; eauto]. apply check_complete; auto. unfold ph_natoms. cbn. lia.
  - exists ip. eexists. split; [auto|]. split; [|cbn; eauto]. apply check_complete; auto. unfold ph_natoms. cbn. lia.
Qed.

(** ** calls other than selection calls *)
Lemma sel_all_frame l : forall d n, let e := sel_all_from n l d in ds_addr e = ds_addr d /\ ds_igni e = ds_igni d /\ ds_ignj e = ds_ignj d.
Proof. induction l as [|p l IH]; cbn; intros d n; auto. destruct (IH (ds_selphase n (ph_addr p) d) (S n)) as (-> & -> & ->). auto. Qed.
Lemma add_set_frame d s : forall d', In d' (s_sets (fst (add_set d s))) -> In d' (s_sets s) \/ (ds_addr d' = ds_addr d /\ ds_igni d' = ds_igni d /\ ds_ignj d' = ds_ignj d).
Proof.
  intros d'. unfold add_set, setdata. set (e := sel_all_from 0 (s_phases s) d).
  assert (E : ds_addr e = ds_addr d /\ ds_igni e = ds_igni d /\ ds_ignj e = ds_ignj d).
  { apply sel_all_frame. }
  assert (X : In d' (s_sets s ++ [e]) -> In d' (s_sets s) \/ (ds_addr d' = ds_addr d /\ ds_igni d' = ds_igni d /\ ds_ignj d' = ds_ignj d)).
  { rewrite in_app_iff. cbn. intros [H|[<-|[]]]; auto. }
  destruct (one_based _ _); auto. destruct (nth_error _ _); auto.
Qed.

Definition old_set (s : session) (d' : dset) : Prop := exists d, In d (s_sets s) /\ ds_addr d = ds_addr d' /\ ds_igni d' = ds_igni d /\ ds_ignj d' = ds_ignj d.
Definition new_set (s : session) (d' : dset) : Prop := ds_addr d' = s_next s /\ (forall b, ds_igni d' b = [] /\ ds_ignj d' b = []).
Definition old_phase (s : session) (p' : phase) : Prop := exists p, In p (s_phases s) /\ ph_addr p = ph_addr p' /\ ph_types p = ph_types p'.

Lemma old_in s d : In d (s_sets s) -> old_set s d.
Proof. intros H. exists d. auto. Qed.
Lemma oldp_in s d : In d (s_phases s) -> old_phase s d.
Proof. intros H. exists d. auto. Qed.

Lemma map_old s f l' : (forall d, ds_addr (f d) = ds_addr d /\ ds_igni (f d) = ds_igni d /\ ds_ignj (f d) = ds_ignj d) -> l' = map f (s_sets s) -> forall d', In d' l' -> old_set s d'.
Proof. intros F -> d' D. apply in_map_iff in D. destruct D as (d & <- & D). exists d. destruct (F d) as (-> & -> & ->). auto. Qed.

Lemma selphase_frame k a d : ds_addr (ds_selphase k a d) = ds_addr d /\ ds_igni (ds_selphase k a d) = ds_igni d /\ ds_ignj (ds_selphase k a d) = ds_ignj d.
Proof. auto. Qed.
Lemma ds_range_frame a b d d' : ds_range a b d = Some d' -> ds_addr d' = ds_addr d /\ ds_igni d' = ds_igni d /\ ds_ignj d' = ds_ignj d.
Proof. unfold ds_range. repeat (match goal with |- context[if ?c then _ else _] => destruct c end; try discriminate). intros H. inversion H; subst. auto. Qed.
Lemma range_all_frame a b l : forall d', In d' (fst (range_all a b l)) -> exists d, In d l /\ ds_addr d = ds_addr d' /\ ds_igni d' = ds_igni d /\ ds_ignj d' = ds_ignj d.
Proof.
  induction l as [|d l IH]; cbn; [tauto|]. intros d'. destruct (ds_range a b d) as [e|] eqn:E.
  - destruct (range_all a b l) as [r o]. cbn in *. intros [<-|H]. exists d. destruct (ds_range_frame _ _ _ _ E) as (-> & -> & ->). auto. destruct (IH d' H) as (x & X & Y). exists x. auto.
  - cbn. intros [<-|H]. exists d. auto. exists d'. auto.
Qed.

Lemma setphase_frame ip s : s_sets (fst (setphase ip s)) = s_sets s /\ s_phases (fst (setphase ip s)) = s_phases s /\ s_next (fst (setphase ip s)) = s_next s.
Proof. unfold setphase. destruct (one_based _ _); auto. destruct (nth_error _ _); auto. Qed.
Lemma setdata_frame ip s : s_sets (fst (setdata ip s)) = s_sets s /\ s_phases (fst (setdata ip s)) = s_phases s /\ s_next (fst (setdata ip s)) = s_next s.
Proof. unfold setdata. destruct (one_based _ _); auto. destruct (nth_error _ _); auto. Qed.

Lemma step_frame look o s : is_sel_call o = None -> let s' := fst (step look o s) in
  (forall d', In d' (s_sets s') -> old_set s d' \/ new_set s d') /\
  (forall p', In p' (s_phases s') -> old_phase s p' \/ ph_addr p' = s_next s) /\ (s_next s <= s_next s')%nat.
Proof.
  intros O s'. subst s'.
  assert (Z : (forall d', In d' (s_sets s) -> old_set s d' \/ new_set s d') /\ (forall p', In p' (s_phases s) -> old_phase s p' \/ ph_addr p' = s_next s) /\ (s_next s <= s_next s)%nat).
  { split; [|split]; auto. left. apply old_in; auto. left. apply oldp_in; auto. }
  assert (AD : forall d, ds_addr d = s_next s -> ds_igni d = (fun _ => []) -> ds_ignj d = (fun _ => []) ->
     (forall d', In d' (s_sets (fst (add_set d (bump s)))) -> old_set s d' \/ new_set s d') /\
     (forall p', In p' (s_phases (fst (add_set d (bump s)))) -> old_phase s p' \/ ph_addr p' = s_next s) /\ (s_next s <= s_next (fst (add_set d (bump s))))%nat).
  { intros d A B C. split; [|split].
    - intros d' D. destruct (add_set_frame d (bump s) d' D) as [H|(E1 & E2 & E3)]. left. apply old_in; auto. right. split. congruence. intros b. rewrite E2, E3, B, C. auto.
    - unfold add_set. rewrite (proj1 (proj2 (setdata_frame _ _))). cbn. intros p P. left. apply oldp_in; auto.
    - unfold add_set. rewrite (proj2 (proj2 (setdata_frame _ _))). cbn. lia. }
  destruct o; cbn [step is_sel_call] in *; try discriminate.
  - unfold alloc. repeat (match goal with |- context[if ?b then _ else _] => destruct b end; [auto; fail|]). cbv zeta. apply AD; auto.
  - destruct r; auto. apply AD; auto.
  - destruct r as [e|c]; auto. unfold read_struct. cbv zeta. match goal with |- context[setphase ?a ?b] => destruct (setphase_frame a b) as (-> & -> & ->) end. cbn.
    split; [|split; [|lia]]. intros d' D. left. eapply map_old; [|reflexivity|exact D]. intros d; apply selphase_frame.
    intros p. rewrite in_app_iff. cbn. intros [H|[<-|[]]]; auto. left. apply oldp_in; auto.
  - cbn. split; [|split]; auto; intros ? [].
  - destruct (setphase_frame ip s) as (-> & -> & ->). auto.
  - destruct (setdata_frame is s) as (-> & -> & ->). auto.
  - destruct Z as (Z1 & Z2 & Z3). unfold psel. destruct (s_curset s); [|auto]. destruct (find_set s a); [|auto]. destruct (ip =? ALL).
    + split; [|split]; auto. intros d' D. left. eapply map_old; [|reflexivity|exact D]. intros x; cbn. destruct (Nat.eqb _ _); auto.
    + destruct (one_based _ _); [|auto]. destruct (nth_error _ _); [|auto]. split; [|split]; auto. intros d' D. left. eapply map_old; [|reflexivity|exact D]. intros x; cbn. destruct (Nat.eqb _ _); auto.
  - destruct Z as (Z1 & Z2 & Z3). unfold pdesel. destruct (s_curset s); [|auto]. destruct (find_set s a); [|auto]. destruct (ip =? ALL).
    + split; [|split]; auto. intros d' D. left. eapply map_old; [|reflexivity|exact D]. intros x; cbn. destruct (Nat.eqb _ _); auto.
    + destruct (one_based _ _); [|auto]. destruct (_ <? _)%nat; [|auto]. split; [|split]; auto. intros d' D. left. eapply map_old; [|reflexivity|exact D]. intros x; cbn. destruct (Nat.eqb _ _); auto.
  - destruct Z as (Z1 & Z2 & Z3). unfold range. destruct (Rle_dec _ _); [auto|]. destruct (is =? ALL).
    + pose proof (range_all_frame rmin rmax (firstn (Z.to_nat (s_nset s)) (s_sets s))) as F. destruct (range_all _ _ _) as [l r]. cbn in *. split; auto.
      intros d'. rewrite in_app_iff. intros [H|H].
      * left. destruct (F d' H) as (d & D & E). exists d. split; auto. rewrite <- (firstn_skipn (Z.to_nat (s_nset s)) (s_sets s)). apply in_or_app; auto.
      * left. apply old_in. rewrite <- (firstn_skipn (Z.to_nat (s_nset s)) (s_sets s)). apply in_or_app; auto.
    + destruct (one_based _ _) as [k|]; [|auto]. destruct (nth_error _ _) as [d|] eqn:N; [|auto]. destruct (ds_range rmin rmax d) as [e|] eqn:E; [|auto]. cbn. split; auto.
      intros d' D. apply In_nth_error in D. destruct D as [j J]. rewrite upd_nth in J. destruct (Nat.eqb_spec k j).
      * subst j. rewrite N in J. injection J as <-. left. exists d. destruct (ds_range_frame _ _ _ _ E) as (-> & -> & ->). split; auto. eapply nth_error_In; eauto.
      * left. apply old_in. eapply nth_error_In; eauto.
  - assert (ST : forall a l, (forall d', In d' (s_sets (store a l x s)) -> old_set s d' \/ new_set s d') /\ (forall p', In p' (s_phases (store a l x s)) -> old_phase s p' \/ ph_addr p' = s_next s) /\ (s_next s <= s_next (store a l x s))%nat).
    { intros a l. split; [|split]; auto.
      - intros d' D. left. eapply map_old; [|reflexivity|exact D]. intros y; cbn. destruct (Nat.eqb _ _); auto.
      - intros p P. left. cbn in P. apply in_map_iff in P. destruct P as (q & <- & Q). exists q. destruct (Nat.eqb _ _); auto. }
    destruct v as [n|[n i]]; cbn [setvar_now]; [|destruct (get_ref n i s); auto]; unfold setvar.
    + destruct (ref_of _ s) as [[[a l]|]| | |]; auto. destruct (load s a l); auto. apply ST.
    + destruct (ref_of _ s) as [[[a' l]|]| | |]; auto. destruct (load s a' l); auto. apply ST.
Qed.

(** ** the history *)
Section History.
Variable look : list ascii -> option tyid.
Variables da pa : addr.
Variable side : ascii.
Variable a : nat.
Hypothesis SD : (side = "i" \/ side = "j")%char.

Definition J (s : session) (st : Prop) : Prop :=
  ((s_next s <= da \/ s_next s <= pa)%nat -> ~ st) /\
  (forall d p, In d (s_sets s) -> ds_addr d = da -> In p (s_phases s) -> ph_addr p = pa -> (a < length (ph_types p))%nat -> (In a (ign_list d side pa) <-> st)) /\
  (forall d, In d (s_sets s) -> (s_next s <= pa)%nat -> ign_list d side pa = []).

Lemma in_lt_set s d : core s -> In d (s_sets s) -> (ds_addr d < s_next s)%nat.
Proof. intros I D. pose proof (i_lt s I) as L. rewrite Forall_forall in L. apply L. apply in_or_app. right. apply in_map; auto. Qed.
Lemma in_lt_phase s d : core s -> In d (s_phases s) -> (ph_addr d < s_next s)%nat.
Proof. intros I D. pose proof (i_lt s I) as L. rewrite Forall_forall in L. apply L. apply in_or_app. left. apply in_map; auto. Qed.

Lemma J_step o s st : inv s -> J s st -> J (fst (step look o s)) (names_at look s o da pa side a false \/ (st /\ ~ names_at look s o da pa side a true)).
Proof.
  intros I (J1 & J2 & J3). pose proof I as (I0 & _).
  assert (NL : forall on, (s_next s <= da \/ s_next s <= pa)%nat -> ~ names_at look s o da pa side a on).
  { intros on H (d & p & D & <- & P & <- & _). apply (in_lt_set s d I0) in D. apply (in_lt_phase s p I0) in P. lia. }
  destruct (is_sel_call o) as [[ip ij]|] eqn:SC.
  - rewrite (sel_step look o s ip ij SC).
    assert (NOOP : (forall d p on, ~ names look s o d p side a on) -> J s (names_at look s o da pa side a false \/ (st /\ ~ names_at look s o da pa side a true))).
    { intros N. assert (E : (names_at look s o da pa side a false \/ (st /\ ~ names_at look s o da pa side a true)) <-> st).
      { split. intros [(d & p & _ & _ & _ & _ & H)|[H _]]; auto. exfalso; eapply N; eauto. intros H. right. split; auto. intros (d & p & _ & _ & _ & _ & K). eapply N; eauto. }
      split; [|split]; auto. rewrite E. auto. intros. rewrite E. eapply J2; eauto. }
    destruct (check_sel_args ip ij (sel_idx o) s) as [[d p]| | |] eqn:C.
    2-4: apply NOOP; intros d p on H; destruct (names_check _ _ _ _ _ _ _ _ I H) as (ip' & g & E1 & E2 & _); rewrite SC in E1; inversion E1; subst; congruence.
    destruct (sel_fun look o p) as [g|] eqn:G.
    2: apply NOOP; intros d' p' on H; destruct (names_check _ _ _ _ _ _ _ _ I H) as (ip' & g & E1 & E2 & E3); rewrite SC in E1; inversion E1; subst; rewrite C in E2; inversion E2; subst; congruence.
    destruct (check_ok _ _ _ _ _ _ I C) as (CS & P & S & IJ & AI). pose proof (phase_no_in _ _ _ P) as PI.
    assert (NE : forall on, names_at look s o da pa side a on <-> ds_addr d = da /\ ph_addr p = pa /\ names look s o d p side a on).
    { intros on. split.
      - intros (d' & p' & D1 & D2 & P1 & P2 & H). destruct (names_check _ _ _ _ _ _ _ _ I H) as (ip' & g' & E1 & E2 & _). rewrite SC in E1. inversion E1; subst ip' ij. rewrite C in E2. inversion E2; subst d' p'. auto.
      - intros (E1 & E2 & H). exists d, p. destruct CS. auto 6. }
    split; [|split].
    + cbn. intros H [K|[K _]]. eapply NL; eauto. apply J1; auto.
    + intros d' p' D' DA P' PA LT. cbn in D', P'. apply in_map_iff in D'. destruct D' as (d0 & E & D0). destruct (Nat.eqb_spec (ds_addr d0) (ds_addr d)) as [ED|ED].
      * assert (d0 = d) by (apply (set_inj s I0); auto; apply CS). subst d0 d'. rewrite (proj1 (ds_ignore_keeps _ _ _ _)) in DA.
        rewrite ign_ds_ignore by auto. destruct (Ascii.eqb_spec ij side) as [->|NS]; cbn [andb].
        -- destruct (Nat.eqb_spec pa (ph_addr p)) as [EP|EP].
           ++ assert (p' = p) by (apply (phase_inj s I0); auto; congruence). subst p'.
              rewrite (sel_fun_in look o s d p side a ip side g _ I SC C G eq_refl LT), !NE. rewrite (J2 d p); auto. intuition.
           ++ rewrite (J2 d p'), !NE; auto. split; auto. intros H. right. split; auto. intros (_ & K & _). congruence. intros [(_ & K & _)|[K _]]; auto. congruence.
        -- rewrite (J2 d p'), !NE; auto.
           assert (N : forall on, ~ names look s o d p side a on). { intros on H. destruct (names_check _ _ _ _ _ _ _ _ I H) as (ip' & g' & E1 & E2 & _). rewrite SC in E1. inversion E1; subst. tauto. }
           pose proof (N true). pose proof (N false). tauto.
      * subst d'. rewrite (J2 d0 p'), !NE; auto. split. intros H. right. split; auto. intros (K & _). congruence. intros [(K & _)|[K _]]; auto. congruence.
    + intros d' D' LE. cbn in LE, D'. apply in_map_iff in D'. destruct D' as (d0 & <- & D0). destruct (Nat.eqb _ _); auto.
      rewrite ign_ds_ignore by auto. destruct (Nat.eqb_spec pa (ph_addr p)) as [EP|EP].
      * exfalso. apply (in_lt_phase s p I0) in PI. lia.
      * rewrite andb_false_r. auto.
  - pose proof (step_frame look o s SC) as (F1 & F2 & F3). pose proof (step_inv look o s I) as (I1 & _). set (s' := fst (step look o s)) in *.
    assert (N : forall on, ~ names_at look s o da pa side a on).
    { intros on (d & p & _ & _ & _ & _ & H). destruct (names_check _ _ _ _ _ _ _ _ I H) as (ip' & g' & E1 & _). congruence. }
    assert (E : (names_at look s o da pa side a false \/ (st /\ ~ names_at look s o da pa side a true)) <-> st) by (pose proof (N true); pose proof (N false); tauto).
    split; [|split].
    + rewrite E. intros H. apply J1. lia.
    + intros d' p' D' DA P' PA LT. rewrite E. destruct (F1 d' D') as [(d & D & E1 & E2 & E3)|[E1 E2]].
      * assert (EI : ign_list d' side pa = ign_list d side pa). { unfold ign_list. rewrite E2, E3. auto. } rewrite EI.
        destruct (F2 p' P') as [(p & P & P1 & P2)|P1].
        -- apply (J2 d p); auto; congruence.
        -- rewrite J3; auto; [|lia]. cbn. split; [tauto|]. apply J1. lia.
      * split; [|intros H; exfalso; revert H; apply J1; lia]. unfold ign_list. destruct (E2 pa) as [Q1 Q2]. destruct (Ascii.eqb side "i"). rewrite Q1. intros []. rewrite Q2. intros [].
    + intros d' D' LE. destruct (F1 d' D') as [(d & D & E1 & E2 & E3)|[E1 E2]].
      * unfold ign_list. rewrite E2, E3. apply (J3 d); auto. lia.
      * unfold ign_list. destruct (E2 pa) as [Q1 Q2]. destruct (Ascii.eqb side "i"); auto.
Qed.

Lemma J_run l : forall s st t, inv s -> J s st -> run look l s = Ok t -> J t (ends_off look da pa side a l s st).
Proof.
  induction l as [|o l IH]; cbn; intros s st t I K H. inversion H; subst; auto. pose proof (step_inv look o s I) as I1. pose proof (J_step o s st I K) as K1.
  destruct (step look o s) as [s' [u|e| |]]; try discriminate; apply IH; auto.
Qed.
End History.

Lemma last_call_decides look l s d p side a : reachable look l s -> In d (s_sets s) -> In p (s_phases s) -> (side = "i" \/ side = "j")%char -> (a < length (ph_types p))%nat ->
  (ignored d p side a <-> ends_off look (ds_addr d) (ph_addr p) side a l init False).
Proof.
  intros R D P SD A. assert (K : J (ds_addr d) (ph_addr p) side a init False). { split; [|split]; auto. intros ? ? []. intros ? []. }
  destruct (J_run look (ds_addr d) (ph_addr p) side a SD l init False s init_inv K R) as (_ & J2 & _). apply (J2 d p); auto.
Qed.

(** one call at a time *)
Lemma one_selection_call look l s o d p side a : reachable look l s -> In d (s_sets s) -> In p (s_phases s) -> (side = "i" \/ side = "j")%char -> (a < length (ph_types p))%nat ->
  forall d', In d' (s_sets (fst (step look o s))) -> ds_addr d' = ds_addr d ->
  (forall on, names look s o d p side a on -> (ignored d' p side a <-> on = false)) /\
  ((forall on, ~ names look s o d p side a on) -> (ignored d' p side a <-> ignored d p side a)).
Proof.
  intros R D P SD A d' D' E. pose proof (reach_inv _ _ _ R) as I. pose proof I as (I0 & _).
  assert (K : J (ds_addr d) (ph_addr p) side a s (ignored d p side a)).
  { split; [|split].
    - apply (in_lt_set s d I0) in D. apply (in_lt_phase s p I0) in P. lia.
    - intros d1 p1 D1 E1 P1 E2 _. assert (d1 = d) by (apply (set_inj s I0); auto). subst. unfold ignored, ign_list. tauto.
    - apply (in_lt_phase s p I0) in P. lia. }
  pose proof (J_step look (ds_addr d) (ph_addr p) side a SD o s _ I K) as (_ & J2 & _).
  assert (LP : exists p', In p' (s_phases (fst (step look o s))) /\ ph_addr p' = ph_addr p /\ ph_types p' = ph_types p).
  { destruct (is_sel_call o) as [[ip ij]|] eqn:SC.
    - exists p. split; auto. rewrite (sel_step look o s ip ij SC). destruct (check_sel_args _ _ _ _) as [[d1 p1]| | |]; auto. destruct (sel_fun look o p1); auto.
    - destruct o; cbn [step is_sel_call] in *; try discriminate.
      + exists p. split; auto. unfold alloc. repeat (match goal with |- context[if ?b then _ else _] => destruct b end; [auto; fail|]). cbv zeta. unfold add_set. rewrite (proj1 (proj2 (setdata_frame _ _))). auto.
      + exists p. split; auto. destruct r; auto. cbn [read_data]. unfold add_set. rewrite (proj1 (proj2 (setdata_frame _ _))). auto.
      + exists p. split; auto. destruct r; auto. unfold read_struct. cbv zeta. rewrite (proj1 (proj2 (setphase_frame _ _))). cbn. apply in_or_app; auto.
      + destruct D'.
      + exists p. split; auto. rewrite (proj1 (proj2 (setphase_frame _ _))). auto.
      + exists p. split; auto. rewrite (proj1 (proj2 (setdata_frame _ _))). auto.
      + exists p. split; auto. unfold psel. destruct (s_curset s); [|auto]. destruct (find_set s a0); [|auto]. destruct (ip =? ALL); auto. destruct (one_based _ _); auto. destruct (nth_error _ _); auto.
      + exists p. split; auto. unfold pdesel. destruct (s_curset s); [|auto]. destruct (find_set s a0); [|auto]. destruct (ip =? ALL); auto. destruct (one_based _ _); auto. destruct (_ <? _)%nat; auto.
      + exists p. split; auto. unfold range. destruct (Rle_dec _ _); auto. destruct (is =? ALL). destruct (range_all _ _ _); auto. destruct (one_based _ _); auto. destruct (nth_error _ _); auto. destruct (ds_range _ _ _); auto.
      + assert (ST : forall b l, exists p', In p' (s_phases (store b l x s)) /\ ph_addr p' = ph_addr p /\ ph_types p' = ph_types p).
        { intros b l0. eexists. split. apply in_map. exact P. destruct (Nat.eqb _ _); auto. }
        assert (SP : exists p', In p' (s_phases s) /\ ph_addr p' = ph_addr p /\ ph_types p' = ph_types p) by (exists p; auto).
        destruct v as [n|[n i]]; cbn [setvar_now]; [|destruct (get_ref n i s); auto]; unfold setvar.
        * destruct (ref_of _ s) as [[[b l0]|]| | |]; auto. destruct (load s b l0); [apply ST|auto..].
        * destruct (ref_of _ s) as [[[b l0]|]| | |]; auto. destruct (load s b l0); [apply ST|auto..]. }
  destruct LP as (p' & LP & EP & ET).
  assert (A' : (a < length (ph_types p'))%nat) by congruence. pose proof (J2 d' p' D' E LP EP A') as JJ.
  assert (NE : forall on, names_at look s o (ds_addr d) (ph_addr p) side a on <-> names look s o d p side a on).
  { intros on. split. intros (d1 & p1 & D1 & E1 & P1 & E2 & H). assert (d1 = d) by (apply (set_inj s I0); auto). assert (p1 = p) by (apply (phase_inj s I0); auto). subst; auto. intros H. exists d, p. auto 6. }
  rewrite !NE in JJ. change (ignored d' p side a <-> names look s o d p side a false \/ ignored d p side a /\ ~ names look s o d p side a true) in JJ. split.
  - intros [] H; rewrite JJ. split; [|discriminate]. intros [K1|[_ K1]]; [|tauto]. destruct K1 as (_ & _ & _ & K1), H as (_ & _ & _ & H). destruct o; intuition congruence. split; auto.
  - intros N. rewrite JJ. pose proof (N true). pose proof (N false). tauto.
Qed.

(** getphase: a number or 0 for the current phase *)
Lemma getphase_is look l s ip : reachable look l s -> match getphase ip s with
  | Ok a => (ip = 0 /\ s_curphase s = Some a) \/ exists p, phase_no s ip p /\ a = ph_addr p
  | Err e => e = ErrUnassigned /\ ((ip = 0 /\ s_curphase s = None) \/ (ip <> 0 /\ forall p, ~ phase_no s ip p))
  | _ => False end.
Proof.
  intros R. unfold getphase. rewrite (i_np _ (proj1 (reach_inv look l s R))). set (n := Z.of_nat (length (s_phases s))). pose proof (one_based_spec ip n) as O. destruct (one_based ip n) as [k|].
  - destruct O as [O ->]. destruct (nth_error (s_phases s) (Z.to_nat (ip - 1))) as [p|] eqn:E.
    + cbn [option_map]. destruct (Z.ltb_spec ip 0); [lia|]. destruct (Z.ltb_spec n ip); [lia|]. right. exists p. split; auto. split; auto. lia.
    + apply nth_error_None in E. lia.
  - destruct (s_curphase s) as [a|] eqn:E.
    + destruct (Z.ltb_spec ip 0), (Z.ltb_spec n ip); cbn [orb]; try (left; split; auto; lia); (split; [auto|]; right; split; [lia|]; intros p [P1 P2]);
        (assert ((Z.to_nat (ip - 1) < length (s_phases s))%nat) by (apply nth_error_Some; congruence)); lia.
    + split; auto. destruct (Z.eq_dec ip 0); auto. right. split; auto. intros p [P1 P2]. assert ((Z.to_nat (ip - 1) < length (s_phases s))%nat) by (apply nth_error_Some; congruence). lia.
Qed.
