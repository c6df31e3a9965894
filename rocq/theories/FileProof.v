(** Proofs about files and names. *)
From Coq Require Import Ascii String.
From Coq Require Import List Arith ZArith Reals Bool Lia Lra.
From Verif Require Import Base BindModel FileModel FileSpec.
From Verif Require ParserModel StruModel DataModel DataProof SaveModel SessModel SessSpec SessProof SessProof2 BindProof2.
From Verif Require Import PdfModel.
Import ListNotations.

Section Calls.
Context (look : list ascii -> option SessModel.tyid) (mks : StruModel.sphase -> SessModel.stru_content) (mkd : DataModel.dset -> SessModel.data_content) (fuel : nat).
Notation pstep := (pstep look mks mkd fuel).
Notation prun := (prun look mks mkd fuel).

(** * plain calls keep phases and data sets *)
Definition nums (s : SessModel.session) : nat * nat := (length (SessModel.s_phases s), length (SessModel.s_sets s)).
Lemma nums_on_set a f s : nums (SessModel.on_set a f s) = nums s.
Proof. unfold nums, SessModel.on_set; cbn. rewrite map_length. auto. Qed.
Lemma nums_setphase ip s : nums (fst (SessModel.setphase ip s)) = nums s.
Proof. unfold SessModel.setphase. destruct (SessModel.one_based _ _); auto. destruct (nth_error _ _); auto. Qed.
Lemma nums_setdata ip s : nums (fst (SessModel.setdata ip s)) = nums s.
Proof. unfold SessModel.setdata. destruct (SessModel.one_based _ _); auto. destruct (nth_error _ _); auto. Qed.
Lemma nums_psel ip s : nums (fst (SessModel.psel ip s)) = nums s.
Proof.
  unfold SessModel.psel. repeat match goal with |- context[match ?x with _ => _ end] => destruct x; cbn [fst]; auto using nums_on_set end.
Qed.
Lemma nums_pdesel ip s : nums (fst (SessModel.pdesel ip s)) = nums s.
Proof.
  unfold SessModel.pdesel. repeat match goal with |- context[match ?x with _ => _ end] => destruct x; cbn [fst]; auto using nums_on_set end.
Qed.
Lemma nums_args s ip ij ai f : nums (fst (SessModel.with_args s ip ij ai f)) = nums s.
Proof. unfold SessModel.with_args. destruct (SessModel.check_sel_args _ _ _ _) as [[d p]|e| |]; auto. destruct (f p); auto. apply nums_on_set. Qed.
Lemma nums_range is a b s : nums (fst (SessModel.range is a b s)) = nums s.
Proof.
  unfold SessModel.range. destruct (Rle_dec b a); auto. destruct (is =? SessModel.ALL)%Z.
  - destruct (SessProof.range_all_keeps a b (firstn (Z.to_nat (SessModel.s_nset s)) (SessModel.s_sets s))) as (K & _).
    destruct (SessModel.range_all _ _ _) as [l o]. cbn [fst] in *. unfold nums, SessModel.set_sets; cbn. f_equal.
    apply (f_equal (@length _)) in K. rewrite !map_length in K. rewrite app_length, K, <- app_length, firstn_skipn. auto.
  - destruct (SessModel.one_based _ _); auto. destruct (nth_error _ _); auto. destruct (SessModel.ds_range _ _ _); auto.
    unfold nums, SessModel.set_sets; cbn. rewrite SessProof.upd_len. auto.
Qed.
Lemma nums_store a l x s : nums (SessModel.store a l x s) = nums s.
Proof. unfold nums, SessModel.store; cbn. rewrite !map_length. auto. Qed.
Lemma nums_setvar h x s : nums (fst (SessModel.setvar h x s)) = nums s.
Proof.
  unfold SessModel.setvar. destruct (SessModel.ref_of h s) as [[[a l]|]|e| |]; auto. destruct (SessModel.load s a l); auto. apply nums_store.
Qed.
Lemma nums_plain o s : plain o = true -> nums (fst (SessModel.step look o s)) = nums s.
Proof.
  destruct o as [ | | | | | | | | ip ij smb sel|ip ij a sel|ip ij|ip ij| |v x]; cbn [plain SessModel.step]; try discriminate; intros _;
    auto using nums_setphase, nums_setdata, nums_psel, nums_pdesel, nums_range;
    try (unfold SessModel.select_type, SessModel.select_index, SessModel.select_all, SessModel.select_none; apply nums_args).
  unfold SessModel.setvar_now. destruct v as [n|[n i]]; auto using nums_setvar. destruct (SessModel.get_ref n i s); auto using nums_setvar.
Qed.

(** * one call *)
Notation inv := SessProof.inv.
Definition others (p : pf) := (pf_names p, pf_stru p, pf_data p).
(** what a loading call of the extension does *)
Lemma load_struct_ends c t p p' r : inv (pf_ses p) -> load_struct mks c t p = (p', r) ->
  match r with
  | PVal _ => inv (pf_ses p') /\ others p' = others p /\ nums (pf_ses p') = (S (fst (nums (pf_ses p))), snd (nums (pf_ses p)))
  | _ => p' = p
  end.
Proof.
  intros I. unfold load_struct. destruct (StruModel.read_struct t) as [ph|e| |].
  - destruct (SessProof2.read_struct_new (mks ph) _ I) as (s' & q & E & Lp & _ & _ & _ & Ls & _). rewrite E. cbn [catching]. intros [= <- <-].
    pose proof (SessProof.read_struct_inv (inr (mks ph)) _ I) as [I' _]. rewrite E in I'. cbn [fst] in I'. split; auto. split; auto.
    unfold nums; cbn. rewrite Lp, app_length. apply (f_equal (@length _)) in Ls. rewrite !map_length in Ls. rewrite Ls. cbn. f_equal. lia.
  - intros [= <- <-]. cbn. destruct (c e); auto.
  - intros [= <- <-]. auto.
  - intros [= <- <-]. auto.
Qed.
Lemma load_data_ends c n d p p' r : inv (pf_ses p) -> load_data mkd c n d p = (p', r) ->
  match r with
  | PVal _ => inv (pf_ses p') /\ pf_names p' = pf_names p ++ [n] /\ pf_stru p' = pf_stru p /\ pf_data p' = pf_data p /\ nums (pf_ses p') = (fst (nums (pf_ses p)), S (snd (nums (pf_ses p))))
  | _ => p' = p
  end.
Proof.
  intros I. unfold load_data. destruct d as [ds|e| |].
  - destruct (SessProof2.read_data_new (mkd ds) _ I) as (s' & q & E & Ls & Lp & _). rewrite E. cbn [catching]. intros [= <- <-].
    pose proof (SessProof.read_data_inv (inr (mkd ds)) _ I) as [I' _]. rewrite E in I'. cbn [fst] in I'. split; auto. split; auto. split; auto. split; auto.
    unfold nums; cbn. rewrite Ls, Lp, app_length. cbn. f_equal. lia.
  - intros [= <- <-]. cbn. destruct (c e); auto.
  - intros [= <- <-]. auto.
  - intros [= <- <-]. auto.
Qed.
Lemma alloc_ends qmax qdamp rmin rmax bin p p' r : inv (pf_ses p) -> ext_alloc qmax qdamp rmin rmax bin p = (p', r) ->
  match r with
  | PVal _ => inv (pf_ses p') /\ pf_names p' = pf_names p ++ [chars "Dummy set"] /\ pf_stru p' = pf_stru p /\ pf_data p' = pf_data p /\ nums (pf_ses p') = (fst (nums (pf_ses p)), S (snd (nums (pf_ses p))))
  | PExc _ => p' = p
  | _ => False
  end.
Proof.
  intros I. unfold ext_alloc. pose proof (SessProof.alloc_inv qmax qdamp rmin rmax bin _ I) as [I' _].
  assert (D : SessSpec.alloc_args qmax qdamp rmin rmax bin \/ ~ SessSpec.alloc_args qmax qdamp rmin rmax bin).
  { unfold SessSpec.alloc_args. destruct (Rle_dec 0 rmin), (Rle_dec rmin rmax), (Z_lt_dec 1 bin), (Rle_dec 0 qmax), (Rle_dec 0 qdamp); try (right; tauto); left; tauto. }
  destruct D as [A|A].
  - destruct A as (A1 & A2 & A3 & A4). destruct (SessProof2.alloc_new qmax qdamp rmin rmax bin _ I A1 A2 A3 A4) as (s' & q & E & Ls & Lp & _).
    rewrite E in *. cbn [fst] in I'. intros [= <- <-]. split; auto. split; auto. split; auto. split; auto. unfold nums; cbn. rewrite Ls, Lp, app_length. cbn. f_equal. lia.
  - rewrite (SessProof2.alloc_rejects _ _ _ _ _ _ A). intros [= <- <-]. cbn. destruct p; auto.
Qed.

(** * a session *)
Definition matches (sh : shelf) (p : pf) : Prop :=
  inv (pf_ses p) /\ pf_stru p = fst sh /\ pf_data p = labels (snd sh) /\ pf_names p = map fst (snd sh) /\ nums (pf_ses p) = (length (fst sh), length (snd sh)).
Lemma labels_app a b : labels (a ++ b) = labels a ++ labels b.
Proof. unfold labels. apply flat_map_app. Qed.
Lemma load_struct_matches c t p sh n p' r : matches sh p -> then_ (load_struct mks c t p) (add_stru n) = (p', r) ->
  match r with PVal _ => matches (fst sh ++ [n], snd sh) p' | _ => p' = p end.
Proof.
  intros (I & E1 & E2 & E3 & E4) E. destruct (load_struct mks c t p) as [q x] eqn:L. pose proof (load_struct_ends c t p q x I L) as X.
  destruct x; cbn [then_] in E; injection E as <- <-; auto. destruct X as (X1 & X2 & X3). unfold others in X2. injection X2 as Y1 Y2 Y3.
  unfold matches; cbn. rewrite Y1, Y2, Y3, X3, E1, E4, app_length. cbn. split; [exact X1|]. split; auto. split; auto. split; auto. f_equal; lia.
Qed.
Lemma load_data_matches c n d m p sh p' r : matches sh p -> then_ (load_data mkd c n d p) (add_data m) = (p', r) ->
  match r with PVal _ => matches (fst sh, snd sh ++ [(n, Some m)]) p' | _ => p' = p end.
Proof.
  intros (I & E1 & E2 & E3 & E4) E. destruct (load_data mkd c n d p) as [q x] eqn:L. pose proof (load_data_ends c n d p q x I L) as X.
  destruct x; cbn [then_] in E; injection E as <- <-; auto. destruct X as (X1 & X2 & X3 & X4 & X5).
  unfold matches; cbn. rewrite X2, X3, X4, X5, E2, E3, E4, app_length, map_app, labels_app. cbn. split; [exact X1|]. split; auto. split; auto. split; auto. f_equal; lia.
Qed.
Lemma step_matches fs o p sh p' r : matches sh p -> pstep fs o p = (p', r) ->
  match r with PVal _ => matches (shelve sh (o, true)) p' | PExc _ => matches sh p' /\ (loading o -> p' = p) | _ => True end.
Proof.
  intros M E. destruct sh as [st da]. pose proof M as (I & E1 & E2 & E3 & E4). cbn [fst snd] in *.
  assert (W : forall (X : shelf), match r with PVal _ => matches X p' | _ => p' = p end -> match r with PVal _ => matches X p' | PExc _ => matches (st, da) p' /\ (loading o -> p' = p) | _ => True end).
  { intros X H. destruct r; auto. subst; auto. }
  destruct o as [f|t n|t|f|t n|rr gr dgr n|qmax qdamp rmin rmax bin| |o]; cbn [FileModel.pstep shelve] in *.
  - apply W. unfold ext_read_struct in E. destruct (fs f) as [t|]. exact (load_struct_matches _ _ _ _ _ _ _ M E). injection E as <- <-. reflexivity.
  - apply W. exact (load_struct_matches _ _ _ _ _ _ _ M E).
  - apply W. exact (load_struct_matches _ _ _ _ _ _ _ M E).
  - apply W. unfold ext_read_data in E. destruct (fs f) as [t|]. exact (load_data_matches _ _ _ _ _ _ _ _ M E). injection E as <- <-. reflexivity.
  - apply W. exact (load_data_matches _ _ _ _ _ _ _ _ M E).
  - apply W. unfold ext_read_arrays in E. destruct (negb _). injection E as <- <-. reflexivity. exact (load_data_matches _ _ _ _ _ _ _ _ M E).
  - pose proof (alloc_ends _ _ _ _ _ _ _ _ I E) as X. destruct r; try tauto; [|subst; auto]. destruct X as (X1 & X2 & X3 & X4 & X5).
    unfold matches; cbn. rewrite X2, X3, X4, X5, E2, E3, E4, app_length, map_app, labels_app. cbn. rewrite app_nil_r. split; [exact X1|]. split; auto. split; auto. split; auto. f_equal; lia.
  - injection E as <- <-. unfold matches; cbn. split. apply SessProof.reset_inv. auto.
  - destruct (plain o) eqn:P. 2:{ injection E as <- <-. exact M. }
    pose proof (nums_plain o (pf_ses p) P) as N. pose proof (SessProof.step_inv look o (pf_ses p) I) as I'. destruct (SessModel.step look o (pf_ses p)) as [s' x]. cbn [fst] in *.
    injection E as <- <-. assert (matches (st, da) (with_ses s' p)). { unfold matches; cbn. rewrite N. auto. }
    destruct (catching (c_op o) x); auto. split; auto. intros [].
Qed.
Lemma run_matches l : forall p sh p' oks, matches sh p -> prun l p = Some (p', oks) ->
  length oks = length l /\ matches (fold_left shelve (combine (map snd l) oks) sh) p'.
Proof.
  induction l as [|[fs o] l IH]; cbn [FileModel.prun]; intros p sh p' oks M E.
  - injection E as <- <-. auto.
  - destruct (pstep fs o p) as [q r] eqn:S1. pose proof (step_matches fs o p sh q r M S1) as X. destruct r; try discriminate;
      (destruct (prun l q) as [[p2 ok2]|] eqn:R; [|discriminate]); injection E as <- <-.
    + destruct (IH _ _ _ _ X R) as [A B]. cbn. rewrite A. auto.
    + destruct X as [X _]. destruct (IH _ _ _ _ X R) as [A B]. cbn. rewrite A. split; auto. destruct sh, o; exact B.
Qed.
Lemma new_matches : matches ([], []) pf_new.
Proof. unfold matches; cbn. split. apply SessProof.init_inv. auto. Qed.

Lemma lists_kept l oks p : reached look mks mkd fuel l oks p ->
  length oks = length l /\
  let sh := fold_left shelve (combine (map snd l) oks) ([], []) in
  pf_stru p = fst sh /\ pf_data p = labels (snd sh) /\ pf_names p = map fst (snd sh) /\
  length (SessModel.s_phases (pf_ses p)) = length (fst sh) /\ length (SessModel.s_sets (pf_ses p)) = length (snd sh) /\
  SessSpec.consistent (pf_ses p).
Proof.
  intros R. destruct (run_matches l _ _ _ _ new_matches R) as [A (I & E1 & E2 & E3 & E4)]. split; auto. cbv zeta.
  unfold nums in E4. injection E4 as L1 L2. split; auto. split; auto. split; auto. split; auto. split; auto. exact (SessProof.inv_consistent _ I).
Qed.
Lemma failed_same l oks p fs o p' x : reached look mks mkd fuel l oks p -> loading o -> pstep fs o p = (p', PExc x) -> p' = p.
Proof.
  intros R L E. destruct (run_matches l _ _ _ _ new_matches R) as [A M]. destruct (step_matches fs o p _ p' _ M E) as [_ X]. auto.
Qed.

(** * files and texts *)
Lemma struct_file fs f t p : fs f = Some t -> pstep fs (PStruct f) p = pstep fs (PStructString t f) p.
Proof.
  intros E. cbn [FileModel.pstep]. unfold ext_read_struct, ext_read_struct_string. rewrite E. unfold load_struct.
  pose proof (BindProof2.stru_e t) as X. destruct (StruModel.read_struct t) as [ph|e| |]; auto.
  - destruct (SessModel.read_struct (inr (mks ph)) (pf_ses p)) as [s' r] eqn:R.
    assert (r <> Err ErrIO). { intros ->. revert R. unfold SessModel.read_struct. unfold SessModel.setphase. destruct (SessModel.one_based _ _); [destruct (nth_error _ _)|]; discriminate. }
    destruct r as [u|e| |]; auto. cbn [catching]. destruct e; auto. congruence.
  - destruct X as [-> | ->]; reflexivity.
Qed.
Lemma data_file fs f t n p : fs f = Some t ->
  let a := pstep fs (PData f) p in let b := pstep fs (PDataString t n) p in
  snd a = snd b /\ pf_ses (fst a) = pf_ses (fst b) /\ pf_stru (fst a) = pf_stru (fst b).
Proof.
  intros E. cbn [FileModel.pstep]. unfold ext_read_data, ext_read_data_string. rewrite E. unfold load_data.
  destruct (DataModel.read_data_stream fuel t) as [ds|e| |]; try (cbn; auto; fail).
  - destruct (SessModel.read_data (inr (mkd ds)) (pf_ses p)) as [s' r]. destruct r as [u|e| |]; try (cbn; auto; fail). destruct e; cbn; auto.
  - destruct e; cbn; auto.
Qed.
Lemma no_file fs f p : fs f = None -> pstep fs (PStruct f) p = (p, PExc XIO) /\ pstep fs (PData f) p = (p, PExc XIO).
Proof. intros E. cbn [FileModel.pstep]. unfold ext_read_struct, ext_read_data. rewrite E. split; reflexivity. Qed.
(** * what is loaded *)
Lemma loaded_struct l oks p fs t n ph : reached look mks mkd fuel l oks p -> StruModel.read_struct t = Ok ph ->
  exists p' q, pstep fs (PStructString t n) p = (p', PVal tt) /\ SessModel.s_phases (pf_ses p') = SessModel.s_phases (pf_ses p) ++ [q] /\
  SessModel.ph_types q = SessModel.st_types (mks ph) /\ SessModel.ph_val q = SessModel.st_val (mks ph).
Proof.
  intros R E. destruct (run_matches l _ _ _ _ new_matches R) as [A (I & _)]. cbn [FileModel.pstep]. unfold ext_read_struct_string, load_struct. rewrite E.
  destruct (SessProof2.read_struct_new (mks ph) _ I) as (s' & q & E' & Lp & T & V & _). rewrite E'. cbn. eexists. exists q. split. reflexivity. cbn. auto.
Qed.
Lemma loaded_data_as c n m d ds p sh : matches sh p -> d = Ok ds ->
  exists p' q, then_ (load_data mkd c n d p) (add_data m) = (p', PVal tt) /\ SessModel.s_sets (pf_ses p') = SessModel.s_sets (pf_ses p) ++ [q] /\ SessModel.ds_obs q = SessModel.dc_obs (mkd ds).
Proof.
  intros (I & _) ->. unfold load_data. destruct (SessProof2.read_data_new (mkd ds) _ I) as (s' & q & E' & Ls & _ & _ & _ & _ & O). rewrite E'. cbn. eexists. exists q. split. reflexivity. cbn. auto.
Qed.
Lemma loaded_data l oks p fs t n ds : reached look mks mkd fuel l oks p -> DataModel.read_data_stream fuel t = Ok ds ->
  exists p' q, pstep fs (PDataString t n) p = (p', PVal tt) /\ SessModel.s_sets (pf_ses p') = SessModel.s_sets (pf_ses p) ++ [q] /\ SessModel.ds_obs q = SessModel.dc_obs (mkd ds).
Proof.
  intros R E. destruct (run_matches l _ _ _ _ new_matches R) as [_ M]. exact (loaded_data_as _ _ _ _ _ _ _ M E).
Qed.
Lemma loaded_lists l oks p fs r gr dgr n : reached look mks mkd fuel l oks p ->
  (length r <> length gr \/ (exists w, dgr = Some w /\ length w <> length gr) -> pstep fs (PDataLists r gr dgr n) p = (p, PExc XValue)) /\
  (length r = length gr -> (forall w, dgr = Some w -> length w = length gr) -> forall ds, DataModel.read_data_arrays r gr dgr = Ok ds ->
   exists p' q, pstep fs (PDataLists r gr dgr n) p = (p', PVal tt) /\ SessModel.s_sets (pf_ses p') = SessModel.s_sets (pf_ses p) ++ [q] /\ SessModel.ds_obs q = SessModel.dc_obs (mkd ds)).
Proof.
  intros R. cbn [FileModel.pstep]. unfold ext_read_arrays. split.
  - intros H. assert (X : (length r =? length gr)%nat && match dgr with Some w => (length w =? length gr)%nat | None => true end = false).
    { destruct H as [H|(w & -> & H)]. apply Nat.eqb_neq in H. rewrite H. auto. apply Nat.eqb_neq in H. rewrite H. apply andb_false_r. }
    rewrite X. reflexivity.
  - intros L1 L2 ds E. assert (X : (length r =? length gr)%nat && match dgr with Some w => (length w =? length gr)%nat | None => true end = true).
    { apply Nat.eqb_eq in L1. rewrite L1. destruct dgr as [w|]; auto. cbn. apply Nat.eqb_eq. auto. }
    rewrite X. cbn [negb]. destruct (run_matches l _ _ _ _ new_matches R) as [_ M]. exact (loaded_data_as _ _ _ _ _ _ _ M E).
Qed.
End Calls.

(** * saving *)
Lemma put_only fs f t : only_file fs (put fs f t) f t.
Proof.
  split; unfold put. rewrite (proj2 (DataProof.text_eqb_eq f f) eq_refl). auto.
  intros g N. destruct (DataModel.text_eqb g f) eqn:E; auto. apply DataProof.text_eqb_eq in E. congruence.
Qed.
Lemma put_stored fs f t n : stored n fs (put fs f (firstn n t)) f t.
Proof. exists (firstn n t), (skipn n t). split. symmetry; apply firstn_skipn. split. apply put_only. intros L. apply skipn_all2. auto. Qed.
Definition val (b : outcome text) : pyres text := catching c_save b.
Lemma val_ok b t : val b = PVal t -> b = Ok t.
Proof. destruct b as [u|e| |]; cbn; try discriminate. intros [= ->]. auto. destruct (c_save e); discriminate. Qed.
Lemma after_saves can room (there : bool) build :
  saves can room there (fun f fs => ext_save (if negb there then (fs, Err ErrUnassigned) else write_after can room build f fs)).
Proof.
  intros fs. destruct there; cbn [negb]; (split; [intros T f; try discriminate; reflexivity|]); (split; [reflexivity|]); intros f T N; try discriminate.
  destruct f as [|c f]; [congruence|]. unfold ext_save, write_after. cbn [fst snd]. split.
  - intros C _. rewrite C. reflexivity.
  - intros C t B. rewrite C. apply val_ok in B. rewrite B. cbn [fst snd catching]. split; auto. apply put_stored.
Qed.
Lemma before_saves can room (there : bool) build :
  saves can room there (fun f fs => ext_save (if negb there then (fs, Err ErrUnassigned) else write_before can room build f fs)).
Proof.
  intros fs. destruct there; cbn [negb]; (split; [intros T f; try discriminate; reflexivity|]); (split; [unfold ext_save, write_before; destruct build; reflexivity|]); intros f T N; try discriminate.
  destruct f as [|c f]; [congruence|]. assert (X : snd (ext_save (write_before can room build [] fs)) = val build).
  { unfold ext_save, write_before. destruct build; reflexivity. }
  split; intros C.
  - intros (t & B). rewrite X in B. apply val_ok in B. rewrite B. unfold ext_save, write_before. rewrite C. reflexivity.
  - intros t B. rewrite X in B. apply val_ok in B. rewrite B. unfold ext_save, write_before. rewrite C. cbn [fst snd catching]. split; auto. apply put_stored.
Qed.
Lemma there_neg n i : ((i <? 1) || (Z.of_nat n <? i))%Z = negb (there n i).
Proof. unfold there. rewrite negb_andb, !Z.leb_antisym, !negb_involutive. auto. Qed.
Lemma four_savers can room :
  (forall sets is, saves can room (there (length sets) is) (save_pdf can room sets is)) /\
  (forall sets is, saves can room (there (length sets) is) (save_dif can room sets is)) /\
  (forall iter report, saves can room (negb (iter =? 0)%Z) (save_res can room iter report)) /\
  (forall phases ip, saves can room (there (length phases) ip) (save_struct can room phases ip)).
Proof.
  split; [|split; [|split]].
  - intros sets is. pose proof (after_saves can room (there (length sets) is) (obind (rdz sets (is - 1)) SaveModel.build_pdf_file)) as X. unfold save_pdf. rewrite there_neg. exact X.
  - intros sets is. pose proof (after_saves can room (there (length sets) is) (obind (rdz sets (is - 1)) SaveModel.build_dif_file)) as X. unfold save_dif. rewrite there_neg. exact X.
  - intros iter report. pose proof (before_saves can room (negb (iter =? 0)%Z) report) as X. rewrite negb_involutive in X. exact X.
  - intros phases ip. pose proof (before_saves can room (there (length phases) ip) (omap StruModel.save_struct (rdz phases (ip - 1)))) as X. unfold save_struct. rewrite there_neg. exact X.
Qed.

(** what the texts are *)
Lemma four_texts can room fs :
  (forall sets is t, SaveModel.save_pdf sets is = Ok t -> save_pdf can room sets is [] fs = (fs, PVal t)) /\
  (forall sets is t, SaveModel.save_dif sets is = Ok t -> save_dif can room sets is [] fs = (fs, PVal t)) /\
  (forall iter t, iter <> 0%Z -> save_res can room iter (Ok t) [] fs = (fs, PVal t)) /\
  (forall phases ip p, (1 <= ip)%Z -> nth_error phases (Z.to_nat (ip - 1)) = Some p -> save_struct can room phases ip [] fs = (fs, PVal (StruModel.save_struct p))).
Proof.
  split; [|split; [|split]].
  - intros sets is t. unfold save_pdf, SaveModel.save_pdf. destruct (_ || _). discriminate. intros E. cbn [write_after]. rewrite E. reflexivity.
  - intros sets is t. unfold save_dif, SaveModel.save_dif. destruct (_ || _). discriminate. intros E. cbn [write_after]. rewrite E. reflexivity.
  - intros iter t N. unfold save_res. destruct (Z.eqb_spec iter 0); [lia|]. reflexivity.
  - intros phases ip p L N. assert (B : (Z.to_nat (ip - 1) < length phases)%nat) by (apply nth_error_Some; congruence).
    unfold save_struct. destruct (Z.ltb_spec ip 1); [lia|]. destruct (Z.ltb_spec (Z.of_nat (length phases)) ip); [lia|]. cbn [orb].
    unfold rdz. destruct (Z.ltb_spec (ip - 1) 0); [lia|]. unfold rd. rewrite N. reflexivity.
Qed.
