(** Examples and counterexamples for references to variables. *)
From Coq Require Import Ascii String.
From Coq Require Import List ZArith Reals Bool Lia.
From Verif Require Import Base ParserModel DataSpec SessModel SessSpec SessEx PyModel PySpec PyText PyProof PyRef PyPar.
From Verif Require BindModel SessProof2 ParamModel ConModel.
Import ListNotations.
Local Open Scope Z_scope.

Definition ex_s : session := st_of ex_ops.
Lemma ex_reach : reachable ex_look ex_ops ex_s.
Proof. apply st_reach. exact I. Qed.
Lemma ex_cur : cur_phase ex_s (p0 ex_s).
Proof. split. apply in_hd; reflexivity. reflexivity. Qed.
Lemma ex_curset : cur_set ex_s (d0 ex_s).
Proof. split. apply in_hd; reflexivity. reflexivity. Qed.
Lemma ex_size v p : cur_phase ex_s p -> vsize v p < 2^31.
Proof.
  intros [I _]. assert (E : map (fun p => length (ph_types p)) (s_phases ex_s) = [3; 1]%nat) by reflexivity.
  assert (J : In (length (ph_types p)) [3; 1]%nat). { rewrite <- E. exact (in_map (fun p => length (ph_types p)) _ p I). }
  destruct v; cbn [vsize]. reflexivity. destruct J as [<-|[<-|[]]]; reflexivity.
Qed.
(** " u11( +0_2 ))" is u11(2) *)
Definition ex_text : text := chars " u11( +0_2 ))".
Lemma ex_denotes : denotes ex_text (inl (Vatom Au11, 2)).
Proof.
  apply (den_indexed (chars " ") (chars "u11") (Vatom Au11) [] [] (chars " ") (chars "+0_2") 2 (chars " ") (chars "))")).
  - constructor; [cbn; tauto|constructor].
  - find_in.
  - constructor.
  - constructor.
  - constructor; [cbn; tauto|constructor].
  - exists (Some false), [[0%nat]; [2%nat]]. split; [reflexivity|]. split; [discriminate|]. split; [repeat constructor; try discriminate; lia|reflexivity].
  - constructor; [cbn; tauto|constructor].
  - repeat constructor.
Qed.
Lemma ex_lives : lives ex_s (inl (Vatom Au11, 2)) 0%nat (LAtom 1 Au11).
Proof. exists (p0 ex_s). split. apply ex_cur. split. reflexivity. split; [|reflexivity]. cbn [vsize]. assert (E : length (ph_types (p0 ex_s)) = 3%nat) by reflexivity. rewrite E. lia. Qed.
Lemma ex_lives_set : denotes (chars "qdamp") (inr (chars "qdamp")) /\ lives ex_s (inr (chars "qdamp")) 1%nat LQdamp.
Proof. split. exact (denotes_sca Sqdamp). right. exists (d0 ex_s). split. apply ex_curset. split. reflexivity. find_in. Qed.

(** * the words of the module *)
Lemma reset_any s : PyModel.getvar (AText (chars "reset")) s = (reset s, RUndef) /\ s_phases (reset s) = [] /\ s_sets (reset s) = [].
Proof. repeat split; reflexivity. Qed.
Lemma ex_loaded : length (s_phases ex_s) = 2%nat /\ length (s_sets ex_s) = 2%nat.
Proof. split; reflexivity. Qed.
Lemma reset_word : exists look h s, reachable look h s /\ s_phases s <> [] /\ s_sets s <> [] /\
  PyModel.getvar (AText (chars "reset")) s = (reset s, RUndef) /\ s_phases (reset s) = [] /\ s_sets (reset s) = [].
Proof.
  exists ex_look, ex_ops, ex_s. split; [apply ex_reach|]. destruct ex_loaded as [A B]. split; [|split; [|apply reset_any]].
  - intros E. rewrite E in A. discriminate A.
  - intros E. rewrite E in B. discriminate B.
Qed.
Lemma count_word s : PyModel.getvar (AText (chars "num_phases")) s = (s, RUndef).
Proof. reflexivity. Qed.
Lemma blank_before s : PyModel.getvar (AText (chars " lat(1)")) s = PyModel.getvar (AText (chars "lat(1)")) s.
Proof. reflexivity. Qed.
Lemma blank_after look h s p : reachable look h s -> cur_phase s p ->
  PyModel.getvar (AText (chars "lat(1)")) s = (s, RVal (ph_val p (LLat 0))) /\ PyModel.getvar (AText (chars "lat(1) ")) s = (s, RExc XAttribute).
Proof.
  intros R C. split; [|reflexivity].
  assert (D : denotes (chars "lat(1)") (inl (Vlat, 1))) by exact (denotes_vec Vlat 1).
  unfold PyModel.getvar, with_ref. rewrite (ref_indexed _ _ _ _ D). change (c_int 1) with true. cbn iota.
  destruct (SessProof2.indexed_var look h s p Vlat 1 R C ltac:(reflexivity) ltac:(lia)) as [Q _]. destruct (Q ltac:(cbn; lia)) as (hd & G & V & _).
  rewrite G. cbn. rewrite V. reflexivity.
Qed.
Lemma ex_unknown : ~ exists name o, In name known /\ shaped name (chars "Lat(1)") o.
Proof.
  apply (proj1 (attribute_iff (chars "Lat(1)") init)). reflexivity.
Qed.

(** * forms of the theorems *)
Lemma index_errors look h s t v i p : reachable look h s -> denotes t (inl (v, i)) -> cur_phase s p -> vsize v p < 2^31 -> i < 1 \/ vsize v p < i ->
  exists e, PyModel.getvar (AText t) s = (s, RExc e) /\ (forall x, PyModel.setvar (AText t) x s = (s, RExc e)) /\
    (forall enc q fc c, PyModel.constrain enc (AText t) q fc s c = (s, c, RExc e)) /\
    (-2^31 <= i < 2^31 -> 0 < vsize v p -> e = XEng BindModel.XValue) /\ (-2^31 <= i < 2^31 -> vsize v p = 0 -> e = XEng BindModel.XUnassigned) /\
    (~ -2^31 <= i < 2^31 -> e = XOverflow).
Proof.
  intros R D C B O. exists (wrong_index v p i). destruct (text_outside look h s t v i p R D C B O) as [G W]. split; auto. split; auto. split.
  { eapply con_outside; eauto. }
  unfold wrong_index. rewrite <- c_int_spec. destruct (c_int i); repeat split; intros; try congruence; try tauto.
  - destruct (Z.eqb_spec (vsize v p) 0); [lia|auto].
  - destruct (Z.eqb_spec (vsize v p) 0); [auto|lia].
Qed.
Lemma only_denoting look h s t : reachable look h s -> (forall v p, cur_phase s p -> vsize v p < 2^31) ->
  (s_phases s = [] \/ s_sets s = [] -> Forall (fun o => is_reset o = false) h) ->
  (forall s' y, PyModel.getvar (AText t) s = (s', RVal y) -> s' = s /\ exists d a l, denotes t d /\ lives s d a l /\ value_at s a l y) /\
  (forall s' x, PyModel.setvar (AText t) x s = (s', RVal tt) -> exists d a l, denotes t d /\ lives s d a l /\ only_place s s' a l x).
Proof. intros R B N. split; intros s' x Q. eapply getvar_only; eauto. eapply setvar_only; eauto. Qed.
Lemma ex_only : reachable ex_look ex_ops ex_s /\ (forall v p, cur_phase ex_s p -> vsize v p < 2^31) /\ s_phases ex_s <> [] /\ s_sets ex_s <> [] /\
  exists s' y, PyModel.getvar (AText (chars " u11( +0_2 ))")) ex_s = (s', RVal y).
Proof.
  split; [apply ex_reach|]. split; [exact ex_size|]. destruct ex_loaded as [A B]. split; [intros E; rewrite E in A; discriminate A|]. split; [intros E; rewrite E in B; discriminate B|].
  destruct (text_use _ _ _ _ _ _ _ ex_reach ex_denotes ex_lives ex_size) as (y & _ & G & _). eexists. exists y. exact G.
Qed.
Lemma ex_known : exists name o, In name known /\ shaped name (vec_text Vlat 1) o.
Proof.
  exists (chars "lat"), (Some 1). split; [apply in_by; reflexivity|]. exists [], [], [], [], (chars "1"), [], [")"%char].
  split; [reflexivity|]. repeat split; try constructor; auto. exact (whole_int_text 1).
Qed.
Lemma ex_arity : shaped (chars "lat") (chars " lat") None /\ In (chars "lat") (map fst indexed) /\
  shaped (chars "rcut") (chars "rcut(1)") (Some 1) /\ In (chars "rcut") (map fst of_phase ++ map fst of_set).
Proof.
  split; [|split; [apply in_by; reflexivity|split; [|apply in_by; reflexivity]]].
  - exists (chars " "), []. split; [reflexivity|]. split; constructor; [cbn; tauto|constructor].
  - exists [], [], [], [], (chars "1"), [], [")"%char]. split; [reflexivity|]. repeat split; try constructor; auto. exact (whole_int_text 1).
Qed.
Lemma builders :
  (forall v i, denotes (vec_text v i) (inl (v, i))) /\ (forall v, denotes (sca_name v) (inr (sca_name v)) /\
    ((exists l, In (sca_name v, l) of_phase /\ phase_var v = Some l) \/ (exists l, In (sca_name v, l) of_set /\ set_var v = Some l))) /\
  (forall v s x, PyModel.getvar (ASca v) s = PyModel.getvar (AText (sca_name v)) s /\ PyModel.setvar (ASca v) x s = PyModel.setvar (AText (sca_name v)) x s) /\
  (forall n k, In (n, k) lattice_numbers -> exists t, lat_text n = RVal t /\ denotes t (inl (Vlat, k))) /\
  (forall n, ~ In n (map fst lattice_numbers) -> lat_text n = RExc XKey).
Proof.
  split; [exact denotes_vec|]. split.
  { intros v. split; [apply denotes_sca|]. destruct v; first [left; eexists; split; [find_in|reflexivity] | right; eexists; split; [find_in|reflexivity]]. } split; [intros; apply convert_sca|]. split.
  - intros n k I. exists (vec_text Vlat k). split. now apply lattice_all. apply denotes_vec.
  - intros n N. pose proof (lattice_text n) as L. destruct (lat_text n) as [t|x| | | |]; try tauto.
    + destruct L as (k & I & _). exfalso. apply N. apply in_map_iff. exists (n, k). auto.
    + destruct L as [-> _]. reflexivity.
Qed.
Lemma setpar_variable look h s u d par t : reachable look h s -> denotes u d ->
  (forall a l, lives s d a l -> (forall v p, cur_phase s p -> vsize v p < 2^31) ->
     exists y, value_at s a l y /\ PyModel.setpar par (AText u) s t = (s, ParamModel.setpar t par (Some y), RVal tt)) /\
  (forall e, snd (PyModel.getvar (AText u) s) = RExc e -> PyModel.setpar par (AText u) s t = (s, t, RExc e)).
Proof.
  intros R D. split.
  - intros a l L B. eapply setpar_var; eauto.
  - intros e E. rewrite setpar_as_getvar by (eapply denotes_not_float; eauto). rewrite E.
    assert (F : fst (PyModel.getvar (AText u) s) = s).
    { unfold PyModel.getvar, with_ref. destruct d as [[v i]|n].
      - rewrite (ref_indexed _ _ _ _ D). destruct (if c_int i then _ else _) as [[hd|]| | | | |]; reflexivity.
      - destruct (ref_single _ _ s D) as (v & -> & _). reflexivity. }
    rewrite F. reflexivity.
Qed.
Lemma ex_setpar : numeral_ok (mkNum (Some true) [1]%nat (Some [2; 5]%nat) None) /\ print_numeral (mkNum (Some true) [1]%nat (Some [2; 5]%nat) None) = chars "-1.25" /\
  snd (PyModel.getvar (AText (vec_text (Vatom Ax) 1)) init) = RExc (XEng BindModel.XUnassigned).
Proof. split; [|split; reflexivity]. repeat split; try discriminate; repeat constructor; cbn; lia. Qed.
Lemma ex_all : letters_of (chars "ALL") (chars "aLl") /\ ~ letters_of (chars "ALL") (chars "ALLE").
Proof.
  split; rewrite <- all_text. reflexivity. discriminate.
Qed.
Lemma constrain_calls look h s t d a l enc c : reachable look h s -> denotes t d -> lives s d a l -> (forall v p, cur_phase s p -> vsize v p < 2^31) ->
  l <> LStepcut -> l <> LRcut ->
  (forall f fc, fc = None \/ fc = Some [] -> PyModel.constrain enc (AText t) (PForm f) fc s c = (s, ConModel.constrain c (enc (a, l)) f (-1) ConModel.USER, RVal tt)) /\
  (forall n w fc ty, fc = None /\ w = [] \/ fc = Some w -> In (w, ty) con_types -> -2^31 <= n < 2^31 ->
     PyModel.constrain enc (AText t) (PInt n) fc s c = (s, ConModel.constrain c (enc (a, l)) [] n ty, RVal tt)).
Proof.
  intros R D L B N1 N2. split.
  - intros f fc F. rewrite (con_formula look h s t d a l enc c R D L B f fc F). destruct (loc_eq_dec l LStepcut); [congruence|]. destruct (loc_eq_dec l LRcut); [congruence|reflexivity].
  - intros n w fc ty F T Bn. rewrite (con_number look h s t d a l enc c R D L B n w fc F ty T). apply c_int_spec in Bn. rewrite Bn.
    destruct (loc_eq_dec l LStepcut); [congruence|]. destruct (loc_eq_dec l LRcut); [congruence|reflexivity].
Qed.
Lemma constrain_refused look h s t d a l enc c : reachable look h s -> denotes t d -> lives s d a l -> (forall v p, cur_phase s p -> vsize v p < 2^31) ->
  (forall p w fc ty, l = LStepcut \/ l = LRcut -> match p with PForm _ => fc = None \/ fc = Some [] | PInt n => -2^31 <= n < 2^31 /\ (fc = None /\ w = [] \/ fc = Some w) /\ In (w, ty) con_types end ->
     PyModel.constrain enc (AText t) p fc s c = (s, c, RExc (XEng BindModel.XConstraint))) /\
  (forall n w fc ty, fc = None /\ w = [] \/ fc = Some w -> In (w, ty) con_types -> ~ -2^31 <= n < 2^31 ->
     PyModel.constrain enc (AText t) (PInt n) fc s c = (s, c, RExc XOverflow)) /\
  (forall p w, w <> [] -> (forall ty, ~ In (w, ty) con_types) -> PyModel.constrain enc (AText t) p (Some w) s c = (s, c, RExc XKey)) /\
  (forall f w ty, w <> [] -> In (w, ty) con_types -> PyModel.constrain enc (AText t) (PForm f) (Some w) s c = (s, c, RExc XType)).
Proof.
  intros R D L B. split; [|split; [|split]].
  - intros p w fc ty E F. destruct p as [n|f].
    + destruct F as (Bn & F & T). rewrite (con_number look h s t d a l enc c R D L B n w fc F ty T). apply c_int_spec in Bn. rewrite Bn.
      destruct (loc_eq_dec l LStepcut); [reflexivity|]. destruct (loc_eq_dec l LRcut); [reflexivity|tauto].
    + rewrite (con_formula look h s t d a l enc c R D L B f fc F). destruct (loc_eq_dec l LStepcut); [reflexivity|]. destruct (loc_eq_dec l LRcut); [reflexivity|tauto].
  - intros n w fc ty F T Bn. rewrite (con_number look h s t d a l enc c R D L B n w fc F ty T). rewrite <- c_int_spec in Bn. destruct (c_int n); [congruence|reflexivity].
  - intros p w N H. exact (proj1 (con_wrong look h s t d a l enc c R D L B w p N) H).
  - intros f w ty N H. exact (proj2 (con_wrong look h s t d a l enc c R D L B w (PInt 0) N) ty f H).
Qed.
Lemma constrain_unassigned look h s t d : reachable look h s -> Forall (fun o => is_reset o = false) h -> denotes t d ->
  match d with inl _ => s_phases s = [] | inr n => (In n (map fst of_phase) /\ s_phases s = []) \/ (In n (map fst of_set) /\ s_sets s = []) end ->
  (match d with inl (v, i) => -2^31 <= i < 2^31 | inr n => n <> chars "stepcut" /\ n <> chars "rcut" end) ->
  forall enc c n, -2^31 <= n < 2^31 -> PyModel.constrain enc (AText t) (PInt n) None s c = (s, c, RExc (XEng BindModel.XUnassigned)).
Proof. intros R N D L B enc c n Bn. eapply con_unassigned; eauto. now apply c_int_spec. Qed.
Lemma ex_constrain : lives ex_s (inl (Vatom Au11, 2)) 0%nat (LAtom 1 Au11) /\ LAtom 1 Au11 <> LStepcut /\ LAtom 1 Au11 <> LRcut /\
  In (chars "FSQR", ConModel.FSQR) con_types /\ (forall ty, ~ In (chars "fsqr", ty) con_types) /\
  denotes (sca_name Srcut) (inr (sca_name Srcut)) /\ lives ex_s (inr (sca_name Srcut)) 0%nat LRcut.
Proof.
  split; [exact ex_lives|]. split; [discriminate|]. split; [discriminate|]. split; [unfold con_types; find_in|]. split.
  - intros ty H. pose proof (fcon_cases (chars "fsqr")) as F. change (fcon_number (chars "fsqr")) with (@None Z) in F. destruct F as [F|F]; [discriminate F|]. eapply F; eauto.
  - split. exact (denotes_sca Srcut). left. exists (p0 ex_s). split. apply ex_cur. split. reflexivity. find_in.
Qed.
Lemma blank_refuted : exists look h s y, reachable look h s /\ PyModel.getvar (AText (chars "lat(1)")) s = (s, RVal y) /\
  PyModel.getvar (AText (chars " lat(1)")) s = (s, RVal y) /\ PyModel.getvar (AText (chars "lat(1) ")) s = (s, RExc XAttribute).
Proof.
  exists ex_look, ex_ops, ex_s, (ph_val (p0 ex_s) (LLat 0)). split; [apply ex_reach|]. destruct (blank_after _ _ _ _ ex_reach ex_cur) as [A B]. split; [exact A|]. split; [|exact B].
  rewrite blank_before. exact A.
Qed.

Lemma index_calls : forall (n : pyidx) k b (tab : ptab) s,
  (match n with IInt j => -2^31 <= j < 2^31 /\ k = j | IText t => letters_of (chars "ALL") t /\ k = -1 end ->
     (exists r, ParamModel.setflag b tab k = (fst (PyModel.setflag b n tab), r) /\ snd (PyModel.setflag b n tab) = from_ext (BindModel.catching BindModel.c_unassigned r)) /\
     (exists r, SessModel.psel k s = (fst (PyModel.psel n s), r) /\ snd (PyModel.psel n s) = from_ext (BindModel.catching BindModel.c_unassigned r)) /\
     (exists r, SessModel.pdesel k s = (fst (PyModel.pdesel n s), r) /\ snd (PyModel.pdesel n s) = from_ext (BindModel.catching BindModel.c_unassigned r))) /\
  (match n with IInt j => ~ -2^31 <= j < 2^31 | IText t => ~ letters_of (chars "ALL") t end ->
     let e := match n with IInt _ => XOverflow | IText _ => XType end in
     PyModel.setflag b n tab = (tab, RExc e) /\ PyModel.psel n s = (s, RExc e) /\ PyModel.pdesel n s = (s, RExc e)).
Proof.
  intros n k b tab s. split.
  - intros H. assert (E : PyModel.index n = RVal k).
    { destruct n as [j|t]; destruct H as [H ->]; cbn [PyModel.index]. apply c_int_spec in H. now rewrite H. apply all_text in H. now rewrite H. }
    unfold PyModel.setflag, PyModel.psel, PyModel.pdesel, on_index. rewrite E.
    split; [|split]; [destruct (ParamModel.setflag b tab k) as [x r]|destruct (SessModel.psel k s) as [x r]|destruct (SessModel.pdesel k s) as [x r]]; exists r; split; reflexivity.
  - intros H. set (e := match n with IInt _ => XOverflow | IText _ => XType end). assert (E : PyModel.index n = RExc e).
    { unfold e. destruct n as [j|t]; cbn [PyModel.index].
      rewrite <- c_int_spec in H. destruct (c_int j); [congruence|auto]. rewrite <- all_text in H. destruct (text_eqb (map upper t) (chars "ALL")); [congruence|auto]. }
    unfold PyModel.setflag, PyModel.psel, PyModel.pdesel, on_index. cbn zeta. rewrite E. repeat split; reflexivity.
Qed.
