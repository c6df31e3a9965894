(** All phases, and the operations after the sums over pairs. *)
From Coq Require Import List Arith ZArith Reals Bool Lia Lra.
From Verif Require Import Base RSum MathModel MetricModel MetricSpec MetricProof SphereModel SphereSpec SphereProof PdfModel PdfSpec PdfProof PdfGeo PdfSum PdfPeak PdfPhase PdfTotal PdfFft PdfSafe PdfFinal LayoutModel LayoutSpec LayoutProof DerivModel DerivSpec DerivRow DerivPair DerivCut.
Import ListNotations.
Local Open Scope nat_scope.

(** the selected phases with their numbers *)
Fixpoint numbered (k : nat) (psel : list (option centry)) : list (nat * centry) :=
  match psel with [] => [] | Some e :: r => (k, e) :: numbered (S k) r | None :: r => numbered (S k) r end.
Lemma numbered_in psel : forall k ip e, In (ip, e) (numbered k psel) <-> k <= ip /\ nth_error psel (ip - k) = Some (Some e).
Proof.
  induction psel as [|[a|] r IH]; intros k ip e; cbn [numbered].
  - split. intros []. intros [_ H]. destruct (ip - k); discriminate.
  - cbn [In]. rewrite IH. split.
    + intros [E|[L H]]. injection E as <- <-. rewrite Nat.sub_diag. auto. split. lia. replace (ip - k) with (S (ip - S k)) by lia. auto.
    + intros [L H]. destruct (Nat.eq_dec ip k) as [->|Ne]. rewrite Nat.sub_diag in H. simpl in H. left. congruence. right. split. lia. replace (ip - k) with (S (ip - S k)) in H by lia. auto.
  - rewrite IH. split.
    + intros [L H]. split. lia. replace (ip - k) with (S (ip - S k)) by lia. auto.
    + intros [L H]. destruct (Nat.eq_dec ip k) as [->|Ne]. rewrite Nat.sub_diag in H. discriminate. split. lia. replace (ip - k) with (S (ip - S k)) in H by lia. auto.
Qed.
Lemma numbered_nodup psel : forall k, NoDup (map fst (numbered k psel)).
Proof.
  induction psel as [|[a|] r IH]; intros k; cbn [numbered map]; auto. constructor. constructor; auto. cbn [fst]. intros I. apply in_map_iff in I as ([ip e] & E & I). cbn [fst] in E. subst. apply numbered_in in I. lia.
Qed.
Lemma numbered_loop {S} (f : S -> nat -> centry -> outcome S) psel : forall k s,
  ofold (fun s (x : nat * option centry) => match snd x with None => Ok s | Some e => f s (fst x) e end) (combine (seq k (length psel)) psel) s =
  ofold (fun s (x : nat * centry) => f s (fst x) (snd x)) (numbered k psel) s.
Proof.
  induction psel as [|[a|] r IH]; intros k s; cbn [length seq combine ofold numbered fst snd]; auto.
  - destruct (f s k a); cbn [obind]; auto.
  - cbn [obind]. auto.
Qed.
Lemma numbered_sel psel : forall k, map snd (numbered k psel) = selected_entries psel.
Proof. induction psel as [|[a|] r IH]; intros k; cbn [numbered map selected_entries snd]; auto. rewrite IH. auto. Qed.
Lemma numbered_sum psel : forall k (F : nat -> centry -> R),
  lsum (fun ip => match nth (ip - k) psel None with None => 0%R | Some e => F ip e end) (seq k (length psel)) = lsum (fun x => F (fst x) (snd x)) (numbered k psel).
Proof.
  induction psel as [|a r IH]; intros k F; cbn [length seq numbered]; auto.
  rewrite lsum_cons, Nat.sub_diag. change (nth 0 (a :: r) None) with a.
  assert (E : lsum (fun ip => match nth (ip - k) (a :: r) None with None => 0%R | Some e => F ip e end) (seq (S k) (length r)) = lsum (fun x => F (fst x) (snd x)) (numbered (S k) r)).
  { rewrite <- IH. apply lsum_ext. intros ip I. apply in_seq in I. replace (ip - k) with (S (ip - S k)) by lia. auto. }
  rewrite E. destruct a; [rewrite lsum_cons|]; auto. lra.
Qed.
Lemma ofold_psel {S} (f : S -> centry -> outcome S) psel : forall k s,
  ofold (fun s pe => match pe with Some e => f s e | None => Ok s end) psel s = ofold (fun s (x : nat * centry) => f s (snd x)) (numbered k psel) s.
Proof.
  induction psel as [|[a|] r IH]; intros k s; cbn [numbered ofold snd]; auto. destruct (f s a); cbn [obind]; auto. cbn [obind]. auto.
Qed.

Lemma ofold_ext {S B} (f g : S -> B -> outcome S) : (forall s x, f s x = g s x) -> forall l s, ofold f l s = ofold g l s.
Proof. intros H. induction l as [|x l IH]; intros s; cbn [ofold]; auto. rewrite H. destruct (g s x); cbn [obind]; auto. Qed.

(** ** labels of the operations after the sums *)
Definition atom_setup (ip i : nat) d e wt dnorm calc r bk : list (rvar * (num -> num)) :=
  combine (atom_vars ip i) (map snd (firstn 10 (snd (phase_setup d e 0 [0] [wt] dnorm calc r bk)))).
Definition own_setup (ip : nat) d e dnorm calc r bk : list (rvar * (num -> num)) :=
  combine (map (PV ip) ph_fields) (map snd (snd (phase_setup d e 0 [] [] dnorm calc r bk))).
Definition set_labs (is : nat) d fac t r : list (rvar * (num -> num)) :=
  combine (map (SV is) set_fields) (map snd (set_setup d 0 fac t r)).
Lemma setup_slots natoms ip d e oa (w : nat -> num) n dnorm calc r bk : 
  (forall i, i < n -> nth_error oa i = Some (slot natoms (AV ip i (FPos 0)))) ->
  snd (phase_setup d e (slot natoms (PV ip (FA0 0))) oa (map w (seq 0 n)) dnorm calc r bk) =
  slots natoms (flat_map (fun i => atom_setup ip i d e (w i) dnorm calc r bk) (seq 0 n) ++ own_setup ip d e dnorm calc r bk).
Proof.
  intros OA. unfold slots. rewrite map_app. unfold phase_setup at 1. cbv zeta. cbn [snd]. f_equal.
  - assert (E : combine oa (map w (seq 0 n)) = map (fun i => (slot natoms (AV ip i (FPos 0)), w i)) (seq 0 n)).
    { assert (X : forall k a, (forall i, i < k -> nth_error oa (a + i) = Some (slot natoms (AV ip (a + i) (FPos 0)))) ->
        combine (skipn a oa) (map w (seq a k)) = map (fun i => (slot natoms (AV ip i (FPos 0)), w i)) (seq a k)).
      { induction k as [|k IH]; intros a H; cbn [seq map]. destruct (skipn a oa); auto.
        pose proof (H 0 ltac:(lia)) as H0. rewrite Nat.add_0_r in H0.
        assert (SK : skipn a oa = slot natoms (AV ip a (FPos 0)) :: skipn (S a) oa).
        { revert H0. generalize (slot natoms (AV ip a (FPos 0))). clear. revert a. induction oa as [|o l IHl]; intros a x H0; destruct a; simpl in *; try discriminate. congruence. apply IHl; auto. }
        rewrite SK. cbn [combine]. f_equal. apply IH. intros i Hi. specialize (H (S i) ltac:(lia)). rewrite <- Nat.add_succ_comm in H. auto. }
      apply (X n 0). intros; apply OA; lia. }
    rewrite E. clear E OA. induction (seq 0 n) as [|i l IH]; cbn [map flat_map]; auto. rewrite map_app. f_equal; auto.
    unfold atom_setup, phase_setup, atom_vars, at_fields. cbv zeta. cbn [flat_map combine seq map app snd firstn fst].
    repeat (apply f_equal2; [apply f_equal2; [cbn [slot atom_no_]; lia|reflexivity]|]). reflexivity.
  - unfold own_setup, phase_setup, ph_fields. cbv zeta. cbn [combine flat_map map app snd fst].
    repeat (apply f_equal2; [apply f_equal2; [cbn [slot phase_no]; lia|reflexivity]|]). reflexivity.
Qed.
Lemma set_slots natoms is d fac t r : set_setup d (slot natoms (SV is FDscale)) fac t r = slots natoms (set_labs is d fac t r).
Proof.
  unfold set_labs, set_setup, set_fields, slots. cbn [combine map app snd fst].
  repeat (apply f_equal2; [apply f_equal2; [cbn [slot set_no]; lia|reflexivity]|]). reflexivity.
Qed.
Lemma setup_labels natoms nset ip d e (w : nat -> num) n dnorm calc r bk : nth_error natoms ip = Some n ->
  labels_ok natoms nset (flat_map (fun i => atom_setup ip i d e (w i) dnorm calc r bk) (seq 0 n) ++ own_setup ip d e dnorm calc r bk).
Proof.
  intros IP. assert (L : ip < length natoms) by (apply nth_error_Some; congruence). assert (E : nth ip natoms 0 = n) by (apply nth_error_nth; auto). apply labels_app.
  - intros [v f] I. apply in_flat_map in I as (i & Ii & I). apply in_seq in Ii. apply in_combine_l in I. cbn [fst].
    unfold atom_vars, at_fields in I. cbn [map] in I. repeat (destruct I as [<-|I]; [cbn [exists_var atom_field_ok]; repeat split; auto; lia|]). destruct I.
  - intros [v f] I. apply in_combine_l in I. cbn [fst].
    unfold ph_fields in I. cbn [map] in I. repeat (destruct I as [<-|I]; [cbn [exists_var phase_field_ok]; repeat split; auto; lia|]). destruct I.
Qed.
Lemma set_labels natoms nset is d fac t r : is < nset -> labels_ok natoms nset (set_labs is d fac t r).
Proof.
  intros H [v f] I. apply in_combine_l in I. cbn [fst]. unfold set_fields in I. cbn [map] in I. repeat (destruct I as [<-|I]; [exact H|]). destruct I.
Qed.

Lemma run_app refvar l l' row : run_edits refvar row (l ++ l') = obind (run_edits refvar row l) (fun row => run_edits refvar row l').
Proof. unfold run_edits. revert row. induction l as [|a l IH]; intros row; cbn [app ofold obind]; auto. destruct (edit _ _ _ _); cbn [obind]; auto. Qed.
Lemma slots_app natoms l l' : slots natoms (l ++ l') = slots natoms l ++ slots natoms l'.
Proof. apply map_app. Qed.

Section Setup.
Variables (find : rvar -> option nat) (natoms : list nat) (nset : nat) (ly : layout) (vref : list bool).
Hypothesis LR : layout_right find natoms nset ly.
Hypothesis COL : columns_fit find natoms nset vref.
Let refvar := ly_refvar ly.
Let m := length vref.
Variables (d : cdata) (is : nat).
Hypothesis G : good_grid d.
Hypothesis O : off_origin d.
Hypothesis GF : good_filter d.
Hypothesis IS : is < nset.
Let lo := idx d (calc_lo d).
Let hi := idx d (calc_hi d).
Let N := Z.to_nat (hi + 1).
Let os := slot natoms (SV is FDscale).
Variable pts : nat -> list (Z * Z * Z).

Lemma LEN : length refvar = phase_size natoms + 3 * nset. Proof. apply LR. Qed.
Lemma REF v : exists_var natoms nset v -> nth_error refvar (slot natoms v) = Some (find v).
Proof. intros V. destruct LR as (_ & _ & H & _). apply H; auto. Qed.

(** the entry is good and its lattice points are known *)
Definition good_entry (fuel : nat) (x : nat * centry) : Prop :=
  let (ip, e) := x in let p := en_ph e in
  up_to_date e /\ sane_phase d p /\ nth_error natoms ip = Some (PdfSpec.natoms p) /\
  points_in_sphere fuel (sph_lo d e) (sph_hi d e) (lp_make (cp_a0 p 0%nat * IZR (cp_icc p 0)) (cp_a0 p 1%nat * IZR (cp_icc p 1)) (cp_a0 p 2%nat * IZR (cp_icc p 2)) (cp_win p 0%nat) (cp_win p 1%nat) (cp_win p 2%nat))%R = Ok (pts ip).
Definition Wof (x : nat * centry) : list pairT := pair_W d (snd x) (pts (fst x)).
Definition Cof (p : cphase) (x : pairT) (g : Z) : bool := let '(i, j, t) := x in if contributes_dec d p (atom_no p i) (atom_no p j) t g then true else false.
Lemma value_fixed e g x : value d e g x = if Cof (en_ph e) x g then pair_share d (en_ph e) g x else 0%R.
Proof. destruct x as [[i j] t]. unfold value, Cof, pair_share. destruct (contributes_dec _ _ _ _ _ _); auto. Qed.
Definition share (x : nat * centry) (g : Z) : R := fixed_phase d (snd x) (Wof x) (Cof (en_ph (snd x))) g.

Lemma np_nz e : sane_phase d (en_ph e) -> occ_sum (en_ph e) <> 0%R. Proof. intros H. apply H. Qed.
Lemma sums_at fuel ip e : good_entry fuel (ip, e) -> exists ppp,
  phase_sums fuel d (calc_lo d) (calc_hi d) lo hi e = Ok (ppp, Some (counted_share d (en_ph e) (en_igni e) (en_ignj e))) /\ length ppp = N /\
  forall g, (0 <= g <= hi)%Z -> el ppp g = Some (lsum (value d e g) (Wof (ip, e))).
Proof. intros (U & S & _ & P). apply (phase_sums_ok d e G U S fuel (pts ip) P). Qed.
Lemma point_at ip e ppp g : up_to_date e -> sane_phase d (en_ph e) -> (lo <= g <= hi)%Z ->
  (forall g, (0 <= g <= hi)%Z -> el ppp g = Some (lsum (value d e g) (Wof (ip, e)))) ->
  calc_point d (en_ph e) (de_np (en_der e)) (de_rho0 (en_der e)) (Some (counted_share d (en_ph e) (en_igni e) (en_ignj e))) g (el ppp g) = Some (share (ip, e) g).
Proof.
  intros UTD SP Hg X. pose proof (lo_hi d G) as LH. fold lo hi in LH. rewrite X by lia. pose proof SP as (PC & TN & ICC & OS & _).
  rewrite (np_is (en_ph e) (en_der e) UTD), (rho0_is (en_ph e) (en_der e) UTD PC TN ICC). pose proof (grid_pos d g G O ltac:(lia)). rewrite calc_point_ok by (auto; lra).
  f_equal. unfold share, fixed_phase. cbn [snd]. f_equal. f_equal. f_equal. apply lsum_ext. intros; apply value_fixed.
Qed.
Lemma add_at fuel ip e t : good_entry fuel (ip, e) -> length t = N -> exists t', add_phase fuel d (calc_lo d) (calc_hi d) lo hi t e = Ok t' /\ length t' = N /\
  forall g, (0 <= g <= hi)%Z -> el t' g = if (g <? lo)%Z then el t g else nadd (el t g) (Some (cd_dscale d * cp_pscale (en_ph e) * share (ip, e) g)%R).
Proof.
  intros GE Lt. pose proof (lo_hi d G) as LH. fold lo hi in LH. destruct (sums_at fuel ip e GE) as (ppp & E & L & X). unfold add_phase. rewrite E. cbn [obind].
  pose proof GE as (U & S & _). set (sh := Some (counted_share d (en_ph e) (en_igni e) (en_ignj e))).
  set (h := fun g => nmul (Some (cd_dscale d * cp_pscale (en_ph e))%R) (calc_point d (en_ph e) (de_np (en_der e)) (de_rho0 (en_der e)) sh g (el ppp g))).
  destruct (bump_ok h (zloop lo hi) t) as (t' & E' & L' & X'). apply zloop_nodup. { intros g Hg. apply zloop_in in Hg. rewrite Lt. unfold N. lia. }
  exists t'. split; [|split].
  - rewrite <- E'.
    assert (OE : forall l t, (forall g, In g l -> (0 <= g <= hi)%Z) ->
      ofold (fun (pdftot : list num) (i : Z) => obind (rdz ppp i) (fun v => obind (rdz pdftot i) (fun old => wrz pdftot i (nadd old (nmul (Some (cd_dscale d * cp_pscale (en_ph e))%R) (calc_point d (en_ph e) (de_np (en_der e)) (de_rho0 (en_der e)) sh i v)))))) l t =
      ofold (fun l g => obind (rdz l g) (fun old => wrz l g (nadd old (h g)))) l t).
    { induction l; intros t1 B; cbn [ofold]; auto. rewrite rdz_ok by (rewrite L; pose proof (B a (or_introl eq_refl)); unfold N; lia). cbn [obind].
      fold (h a). destruct (obind (rdz t1 a) _); cbn [obind]; auto. apply IHl. intros; apply B; right; auto. }
    apply OE. intros g Hg. apply zloop_in in Hg. lia.
  - congruence.
  - intros g Hg. destruct (X' g) as [Y1 Y2]; [lia|]. destruct (Z.ltb_spec g lo).
    + apply Y2. rewrite zloop_in. lia.
    + rewrite Y1 by (apply zloop_in; lia). f_equal. unfold h, sh. rewrite (point_at ip) by (auto; lia). reflexivity.
Qed.

(** ** the loop over the phases *)
Definition kept_right (x : nat * centry) (k : kept_phase) : Prop :=
  let (ip, e) := x in
  kp_entry k = e /\ kp_op k = slot natoms (PV ip (FA0 0)) /\ (forall i, i < PdfSpec.natoms (en_ph e) -> nth_error (kp_oa k) i = Some (slot natoms (AV ip i (FPos 0)))) /\
  kp_w k = map (fun i => Some (weight_no d (en_ph e) i)) (seq 0 (PdfSpec.natoms (en_ph e))) /\ length (kp_ppp k) = N /\
  (forall g, (0 <= g <= hi)%Z -> el (kp_ppp k) g = Some (lsum (value d e g) (Wof (ip, e)))) /\
  kp_dnorm k = Some (counted_share d (en_ph e) (en_igni e) (en_ignj e)).
Definition total (l : list (nat * centry)) (g : Z) : R := lsum (fun x => cd_dscale d * cp_pscale (en_ph (snd x)) * share x g)%R l.
Definition diff_step (fuel : nat) (s : list (list num) * list num * list kept_phase) (ip : nat) (e : centry) : outcome (list (list num) * list num * list kept_phase) :=
  let '(A, pdftot, ks) := s in
  obind (rd (ly_phase ly) ip) (fun op => obind (rd (ly_atom ly) ip) (fun oa =>
  obind (phase_sums fuel d (calc_lo d) (calc_hi d) lo hi e) (fun q =>
  obind (add_phase fuel d (calc_lo d) (calc_hi d) lo hi pdftot e) (fun pdftot =>
  obind (phase_derivs fuel (ly_refvar ly) d (calc_lo d) (calc_hi d) lo hi e op oa os A) (fun A =>
  Ok (A, pdftot, ks ++ [mkKept e op oa (weights (cd_type d) (de_np (en_der e)) (cp_atoms (en_ph e))) (fst q) (snd q)])))))).

Lemma diff_loop fuel : forall l A t ks l0, (forall x, In x l -> good_entry fuel x) -> mat N m A -> length t = N -> Forall2 kept_right l0 ks ->
  exists A' t' ks', ofold (fun s (x : nat * centry) => diff_step fuel s (fst x) (snd x)) l (A, t, ks) = Ok (A', t', ks') /\
  acts find natoms nset vref N (fun g => flat_map (fun x => phase_labs d (fst x) is (snd x) (pts (fst x)) g) l) A A' /\
  length t' = N /\ (forall g, (0 <= g <= hi)%Z -> el t' g = if (g <? lo)%Z then el t g else nadd (el t g) (Some (total l g))) /\
  Forall2 kept_right (l0 ++ l) ks'.
Proof.
  induction l as [|[ip e] l IH]; intros A t ks l0 H M L F.
  - exists A, t, ks. cbn [ofold]. split; auto. split. apply acts_refl; auto. split; auto. split. { intros g _. unfold total. rewrite lsum_nil, nadd_zero. destruct (g <? lo)%Z; auto. } rewrite app_nil_r. auto.
  - pose proof (H _ (or_introl eq_refl)) as GE. pose proof GE as (U & S & IP & P).
    assert (IL : ip < length natoms) by (apply nth_error_Some; congruence). assert (IN : nth ip natoms 0 = PdfSpec.natoms (en_ph e)) by (apply nth_error_nth; auto).
    assert (N0 : 0 < PdfSpec.natoms (en_ph e)). { destruct (cp_atoms (en_ph e)) eqn:Q. exfalso. apply (np_nz e S). unfold occ_sum, PdfSpec.natoms. rewrite Q. reflexivity. unfold PdfSpec.natoms. rewrite Q. simpl. lia. }
    destruct LR as (_ & _ & _ & LP & LA & _).
    destruct (LA ip 0 IL) as (oa & EA & _). lia.
    assert (OA : forall i, i < PdfSpec.natoms (en_ph e) -> nth_error oa i = Some (slot natoms (AV ip i (FPos 0)))).
    { intros i Hi. destruct (LA ip i IL) as (oa' & EA' & X). lia. rewrite EA in EA'. injection EA' as <-. auto. }
    cbn [ofold fst snd]. unfold diff_step at 1. unfold rd at 1 2. rewrite (LP ip IL), EA. cbn [obind].
    destruct (sums_at fuel ip e GE) as (ppp & ES & LS & XS). rewrite ES. cbn [obind fst snd].
    destruct (add_at fuel ip e t GE L) as (t1 & ET & LT & XT). rewrite ET. cbn [obind].
    destruct (phase_derivs_ok find natoms nset refvar vref LEN REF COL d ip is e oa G U S IP IS OA fuel (pts ip) A M P) as (A1 & ED & XD). fold os lo hi in ED. fold refvar. rewrite ED. cbn [obind].
    match goal with |- context [ks ++ [?k]] => destruct (IH A1 t1 (ks ++ [k]) (l0 ++ [(ip, e)])) as (A' & t' & ks' & E' & X' & L' & T' & F'); auto end.
    { intros; apply H; right; auto. } { apply XD. }
    { apply Forall2_app; auto. constructor; [|constructor]. unfold kept_right. cbn [kp_entry kp_op kp_oa kp_w kp_ppp kp_dnorm]. split; auto. split; auto. split; auto. split.
      rewrite (weights_ok d e U S). rewrite map_map. reflexivity. split; auto. }
    exists A', t', ks'. split. exact E'. split. { cbn [flat_map]. apply (acts_trans find natoms nset vref N _ _ A A1 A'); auto. }
    split; auto. split. 2:{ rewrite <- app_assoc in F'. auto. }
    intros g Hg. rewrite T', XT by auto. destruct (g <? lo)%Z; auto. unfold total. rewrite lsum_cons, nadd_assoc. reflexivity.
Qed.

(** ** one point *)
Definition radius (g : Z) : R := (IZR g * cd_deltar d + cd_rmin d)%R.
Definition damp (g : Z) : R := if Rlt_dec 0 (cd_qdamp d) then exp (- m_sqr (radius g * cd_qdamp d) / 2) else 1%R.
Definition last_labs (x : nat * centry) (g : Z) : list (rvar * (num -> num)) :=
  let (ip, e) := x in let sh := Some (counted_share d (en_ph e) (en_igni e) (en_ignj e)) in
  flat_map (fun i => atom_setup ip i d e (Some (weight_no d (en_ph e) i)) sh (Some (share x g)) (radius g) (damp g)) (seq 0 (PdfSpec.natoms (en_ph e))) ++
  own_setup ip d e sh (Some (share x g)) (radius g) (damp g).
Definition fac_of (x : nat * centry) (g : Z) : num :=
  fst (phase_setup d (snd x) 0 [] [] (Some 0%R) (Some 0%R) (radius g) (damp g)).
Fixpoint last_fac (l : list (nat * centry)) (g : Z) (f : num) : num := match l with [] => f | x :: l => last_fac l g (fac_of x g) end.
Definition point_labs (l : list (nat * centry)) (t : num) (g : Z) : list (rvar * (num -> num)) :=
  flat_map (fun x => last_labs x g) l ++ set_labs is d (last_fac l g (Some 0%R)) t (radius g).

Lemma setup_loop fuel g : (lo <= g <= hi)%Z -> forall l ks, (forall x, In x l -> good_entry fuel x) -> Forall2 kept_right l ks -> forall row f,
  ofold (fun s k =>
           obind (rdz (kp_ppp k) g) (fun v =>
           let e := kp_entry k in
           let calc := calc_point d (en_ph e) (de_np (en_der e)) (de_rho0 (en_der e)) (kp_dnorm k) g v in
           let (fac, l) := phase_setup d e (kp_op k) (kp_oa k) (kp_w k) (kp_dnorm k) calc (radius g) (damp g) in
           omap (fun row => (row, fac)) (run_edits refvar (fst s) l))) ks (row, f) =
  omap (fun row => (row, last_fac l g f)) (run_edits refvar row (slots natoms (flat_map (fun x => last_labs x g) l))).
Proof.
  intros Hg l ks H F. pose proof (lo_hi d G) as LH. fold lo hi in LH. revert H. induction F as [|[ip e] k l ks K F IH]; intros H row f; cbn [ofold flat_map slots map]. reflexivity.
  destruct K as (K1 & K2 & K3 & K4 & K5 & K6 & K7). pose proof (H _ (or_introl eq_refl)) as (U & S & _).
  rewrite rdz_ok by (rewrite K5; unfold N; lia). cbn [obind]. rewrite K1, K2, K4, K7. rewrite (point_at ip) by auto.
  match goal with |- context [let (_, _) := ?ps in _] => rewrite (surjective_pairing ps) end.
  rewrite (setup_slots natoms ip d e (kp_oa k) (fun i => Some (weight_no d (en_ph e) i)) (PdfSpec.natoms (en_ph e))) by auto.
  fold (last_labs (ip, e) g). change (map (fun e0 => (slot natoms (fst e0), snd e0))) with (slots natoms). rewrite slots_app, run_app. cbn [fst].
  change (flat_map _ (seq 0 (PdfSpec.natoms (en_ph e))) ++ _) with (last_labs (ip, e) g).
  destruct (run_edits refvar row (slots natoms (last_labs (ip, e) g))); cbn [omap obind]; auto.
  rewrite IH by (intros; apply H; right; auto). cbn [last_fac]. reflexivity.
Qed.
Lemma point_ok fuel l ks t : (forall x, In x l -> good_entry fuel x) -> Forall2 kept_right l ks -> length t = N -> forall A g, mat N m A -> (lo <= g <= hi)%Z ->
  setup_point refvar d ks os t A g = obind (rdz A g) (fun row => obind (run_edits refvar row (slots natoms (point_labs l (el t g) g))) (fun row => wrz A g row)).
Proof.
  intros H F L A g M Hg. pose proof (lo_hi d G) as LH. fold lo hi in LH. unfold setup_point. destruct (rdz A g) as [row| | |]; cbn [obind]; auto.
  fold (radius g). fold (damp g). rewrite (setup_loop fuel g Hg l ks H F). unfold point_labs. rewrite slots_app, run_app.
  destruct (run_edits refvar row _); cbn [omap obind fst snd]; auto. rewrite rdz_ok by (rewrite L; unfold N; lia). cbn [obind]. unfold os. rewrite set_slots. reflexivity.
Qed.
Lemma point_labels fuel l t g : (forall x, In x l -> good_entry fuel x) -> labels_ok natoms nset (point_labs l t g).
Proof.
  intros H. apply labels_app. 2:{ apply set_labels; auto. } intros q I. apply in_flat_map in I as ([ip e] & Ix & I). destruct (H _ Ix) as (_ & _ & IP & _).
  apply (setup_labels natoms nset ip d e (fun i => Some (weight_no d (en_ph e) i)) (PdfSpec.natoms (en_ph e)) (Some (counted_share d (en_ph e) (en_igni e) (en_ignj e))) (Some (share (ip, e) g)) (radius g) (damp g) IP q I).
Qed.

(** ** everything *)
Definition all_labs (l : list (nat * centry)) (g : Z) : list (rvar * (num -> num)) :=
  flat_map (fun x => phase_labs d (fst x) is (snd x) (pts (fst x)) g) l ++ (if (lo <=? g)%Z then point_labs l (Some (total l g)) g else []).
Lemma determine_diff_ok fuel psel : (forall x, In x (numbered 0 psel) -> good_entry fuel x) ->
  exists A, determine_diff fuel d psel ly is vref = Ok A /\
  (cd_qmax d <= 0 -> forall v c g, exists_var natoms nset v -> find v = Some c -> (0 <= g <= hi)%Z -> el (column A c) g = leffect v (all_labs (numbered 0 psel) g) (Some 0%R))%R /\
  forall v c D, exists_var natoms nset v -> find v = Some c ->
    (forall g, (0 <= g < lo)%Z -> leffect v (all_labs (numbered 0 psel) g) (Some 0%R) = Some 0%R) ->
    (forall g, (lo <= g <= hi)%Z -> leffect v (all_labs (numbered 0 psel) g) (Some 0%R) = Some (D g)) -> holds_pdf d lo hi D (column A c).
Proof.
  intros H. pose proof (lo_hi d G) as LH. fold lo hi in LH. unfold determine_diff. rewrite (calc_range_ok d G). cbn [obind]. fold lo hi. destruct (Z.ltb_spec (hi + 1) 0); [lia|].
  fold N. unfold rd at 1. destruct LR as (_ & _ & _ & _ & _ & LS). rewrite (LS is IS). cbn [obind]. fold os.
  assert (M0 : mat N m (repeat (repeat (Some 0%R) (length vref)) N)). { split. apply repeat_length. intros row I. apply repeat_spec in I. subst. apply repeat_length. }
  destruct (diff_loop fuel (numbered 0 psel) (repeat (repeat (Some 0%R) (length vref)) N) (repeat (Some 0%R) N) [] [] H M0 (repeat_length _ _) (Forall2_nil _)) as (A1 & t & ks & E & X & Lt & T & F).
  match goal with |- context [ofold ?f (combine _ _) ?s] => assert (EQ : ofold f (combine (seq 0 (length psel)) psel) s = Ok (A1, t, ks)) end.
  { rewrite <- E, <- (numbered_loop (diff_step fuel)). apply ofold_ext. intros [[A t0] ks0] [k [e|]]; reflexivity. }
  rewrite EQ. cbn [obind]. clear EQ E. cbn [app] in F.
  set (l := numbered 0 psel) in *.
  destruct (acts_rows find natoms nset refvar vref LEN REF COL N (fun g => point_labs l (el t g) g) (zloop lo hi) A1 (zloop_nodup _ _)) as (A2 & E2 & X2). apply X.
  { intros g I. apply zloop_in in I. unfold N. lia. } { intros g I. apply (point_labels fuel); auto. }
  assert (E3 : ofold (setup_point refvar d ks os t) (zloop lo hi) A1 = Ok A2).
  { rewrite <- E2. clear E2 X2. destruct X as [M1 _]. revert M1. generalize A1. assert (B : forall g, In g (zloop lo hi) -> (lo <= g <= hi)%Z) by (intros g I; apply zloop_in in I; lia).
    assert (ND := zloop_nodup lo hi). induction (zloop lo hi) as [|g q IH]; intros A M; cbn [ofold]; auto.
    rewrite (point_ok fuel l ks t H F Lt A g M) by (apply B; left; auto).
    destruct (acts_rows find natoms nset refvar vref LEN REF COL N (fun g => point_labs l (el t g) g) [g] A) as (A' & E' & X'); auto. constructor; [intros []|constructor].
    { intros g' [<-|[]]. specialize (B g (or_introl eq_refl)). unfold N. lia. } { intros; apply (point_labels fuel); auto. }
    cbn [ofold] in E'. match type of E' with obind ?y _ = _ => destruct y eqn:Q; try discriminate end. cbn [obind] in *. injection E' as ->. apply IH. intros; apply B; right; auto. inversion ND; auto. apply X'. }
  fold refvar. rewrite E3. cbn [obind]. clear E2 E3.
  destruct (cut_all d G GF m vref A2 eq_refl) as (A & EA & MA & XQ & XA). apply X2. fold lo hi in EA. exists A. split. exact EA.
  assert (CE : forall v c g, exists_var natoms nset v -> find v = Some c -> (0 <= g <= hi)%Z -> cell A2 g c = leffect v (all_labs l g) (Some 0%R)).
  { intros v c g V Fv Hg. destruct X2 as [_ X2]. rewrite (X2 g v c) by (auto; unfold N; lia). destruct X as [_ X]. rewrite (X g v c) by (auto; unfold N; lia).
    unfold all_labs. rewrite leffect_app.
    assert (C0 : cell (repeat (repeat (Some 0%R) (length vref)) N) g c = Some 0%R).
    { unfold cell, row_at. assert (c < length vref). { destruct COL as [_ C2]. apply nth_error_Some. rewrite (C2 v c V Fv). discriminate. }
      rewrite (nth_indep _ [] (repeat (Some 0%R) (length vref))) by (rewrite repeat_length; unfold N; lia). rewrite nth_repeat. rewrite (@nth_indep num _ _ None (Some 0%R)) by (rewrite repeat_length; auto). apply nth_repeat. }
    rewrite C0. assert (TG : (lo <= g)%Z -> el t g = Some (total l g)). { intros B. rewrite T by auto. destruct (Z.ltb_spec g lo); [lia|]. rewrite el_repeat by (unfold N; lia). cbn [nadd]. f_equal. lra. }
    destruct (in_dec Z.eq_dec g (zloop lo hi)) as [I|I]; rewrite zloop_in in I; destruct (Z.leb_spec lo g); auto; try lia. rewrite TG; auto. }
  split. { intros Q v c g V Fv Hg. rewrite (XQ Q) in *. rewrite el_column. apply CE; auto. exact d. destruct MA as [LA _]. rewrite LA. fold hi. lia. }
  intros v c D V Fv Z0 Z1. apply XA. apply (proj2 COL v c V Fv). intros g Hg. rewrite (CE v) by (auto; lia). auto. intros g Hg. rewrite (CE v) by (auto; lia). auto.
Qed.

(** the PDF itself *)
Lemma determine_at fuel psel : (forall x, In x (numbered 0 psel) -> good_entry fuel x) ->
  exists t, determine fuel d psel = Ok (idx d (cd_rfmin d), idx d (cd_rfmax d), t) /\ holds_pdf d lo hi (total (numbered 0 psel)) t.
Proof.
  intros H. pose proof (lo_hi d G) as LH. fold lo hi in LH. pose proof (calc_order d G) as ((C1 & C2) & C3). pose proof G as (D & P0 & [R1 R2] & B).
  assert (LOOP : forall l t, (forall x, In x l -> good_entry fuel x) -> length t = N -> exists t', ofold (fun s (x : nat * centry) => add_phase fuel d (calc_lo d) (calc_hi d) lo hi s (snd x)) l t = Ok t' /\ length t' = N /\
    forall g, (0 <= g <= hi)%Z -> el t' g = if (g <? lo)%Z then el t g else nadd (el t g) (Some (total l g))).
  { induction l as [|[ip e] l IH]; intros t Hl L; cbn [ofold snd].
    - exists t. split; auto. split; auto. intros g _. unfold total. rewrite lsum_nil, nadd_zero. destruct (g <? lo)%Z; auto.
    - destruct (add_at fuel ip e t (Hl _ (or_introl eq_refl)) L) as (t1 & E1 & L1 & X1). rewrite E1. cbn [obind]. destruct (IH t1) as (t' & E' & L' & X'); auto. intros; apply Hl; right; auto.
      exists t'. split; auto. split; auto. intros g Hg. rewrite X', X1 by auto. destruct (g <? lo)%Z; auto. unfold total. rewrite lsum_cons, nadd_assoc. reflexivity. }
  destruct (LOOP (numbered 0 psel) (repeat (Some 0%R) N) H (repeat_length _ _)) as (t & E & L & X). clear LOOP.
  set (V := total (numbered 0 psel)) in *.
  assert (S1 : firstn (Z.to_nat lo) t = repeat (Some 0%R) (Z.to_nat lo)).
  { apply (firstn_vals d G); auto. intros g Hg. rewrite X by lia. destruct (Z.ltb_spec g lo); [|lia]. apply el_repeat. unfold N. lia. }
  assert (S2 : skipn (Z.to_nat lo) t = map Some (map V (zloop lo hi))).
  { apply (skipn_vals d G); auto. intros g Hg. rewrite X by lia. destruct (Z.ltb_spec g lo); [lia|]. rewrite el_repeat by (unfold N; lia). cbn. f_equal. lra. }
  unfold determine. rewrite (nint_grid d G (cd_rfmin d)) by lra. rewrite (nint_grid d G (cd_rfmax d)) by lra. rewrite (calc_range_ok d G). cbn [obind].
  fold lo hi. destruct (Z.ltb_spec (hi + 1) 0); [lia|]. fold N. rewrite (ofold_psel (fun s e => add_phase fuel d (calc_lo d) (calc_hi d) lo hi s e) psel 0). rewrite E. cbn [obind].
  fold (idx d (cd_rfmin d)) (idx d (cd_rfmax d)).
  assert (LV : length (map V (zloop lo hi)) = Z.to_nat (hi - lo + 1)) by (rewrite map_length, zloop_len; auto; lia).
  destruct (Rlt_dec 0 (cd_qmax d)) as [Q|Q].
  - destruct (Z.ltb_spec lo 0); [lia|]. destruct (Z.ltb_spec hi lo); [lia|]. cbn [orb]. rewrite S1, S2.
    destruct (cutoff_ok (cd_qmax d) (cd_deltar d) (map V (zloop lo hi))) as (out & EO & F); auto. rewrite LV; lia.
    { pose proof (good_len d G GF (map Some (map V (zloop lo hi))) Q) as GL. rewrite map_length in GL. apply GL. exact LV. }
    unfold cutoff. rewrite all_fin_some, EO. cbn [omap]. eexists. split. reflexivity. apply holds; auto. destruct F as (Pd & _ & LL & _). rewrite LL. auto. intros; lra.
  - eexists. split. reflexivity. rewrite <- (firstn_skipn (Z.to_nat lo) t), S1, S2. apply holds; auto. intros; contradiction.
Qed.
End Setup.
