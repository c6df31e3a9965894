(** References to variables: what getvar and setvar do with a text. *)
From Coq Require Import Ascii String.
From Coq Require Import List ZArith Reals Bool Lia.
From Verif Require Import Base ParserModel DataSpec SessModel SessSpec PyModel PySpec PyText PyProof.
From Verif Require BindModel SessProof SessProof2 ParamModel.
Import ListNotations.
Local Open Scope Z_scope.

Lemma c_int_spec i : c_int i = true <-> -2^31 <= i < 2^31.
Proof. unfold c_int. rewrite andb_true_iff, !Z.leb_le. change (2^31) with 2147483648. lia. Qed.

Lemma ref_indexed t v i s : denotes t (inl (v, i)) -> PyModel.get_ref (AText t) s =
  (s, if c_int i then from_ext (BindModel.catching BindModel.c_value_unassigned (omap OVar (SessModel.get_ref v i s))) else RExc XOverflow).
Proof.
  intros D. inversion D; subst. unfold PyModel.get_ref. cbn [convert]. rewrite apart_indexed with (i := i) by (auto; eapply indexed_wordy; eauto).
  rewrite (getattr_indexed name v) by auto. reflexivity.
Qed.
Lemma ref_single t name s : denotes t (inr name) -> exists v, PyModel.get_ref (AText t) s = (s, RVal (OVar (HSca v))) /\ getattr name = Some (KSca v) /\
  ((exists l, In (name, l) of_phase /\ phase_var v = Some l) \/ (exists l, In (name, l) of_set /\ set_var v = Some l)).
Proof.
  intros D. inversion D as [|b1 n0 b2 W1 H W2]; subst. unfold PyModel.get_ref. cbn [convert]. rewrite apart_single by (auto; now apply single_wordy).
  apply in_app_or in H; destruct H as [H|H]; apply in_map_iff in H; destruct H as ([n l] & E & H); cbn [fst] in E; subst n.
  - destruct (getattr_phase name l H) as (v & G & P). exists v. rewrite G. repeat split; auto. left. eauto.
  - destruct (getattr_set name l H) as (v & G & P). exists v. rewrite G. repeat split; auto. right. eauto.
Qed.
Lemma of_phase_fun name l l' : In (name, l) of_phase -> In (name, l') of_phase -> l = l'.
Proof.
  intros H H'. destruct (getattr_phase _ _ H) as (v & G & P). destruct (getattr_phase _ _ H') as (v' & G' & P'). congruence.
Qed.
Lemma of_set_fun name l l' : In (name, l) of_set -> In (name, l') of_set -> l = l'.
Proof.
  intros H H'. destruct (getattr_set _ _ H) as (v & G & P). destruct (getattr_set _ _ H') as (v' & G' & P'). congruence.
Qed.
Lemma phase_not_set name l l' : In (name, l) of_phase -> In (name, l') of_set -> False.
Proof.
  intros H H'. destruct (getattr_phase _ _ H) as (v & G & P). destruct (getattr_set _ _ H') as (v' & G' & P').
  assert (v = v') by congruence. subst. destruct v'; discriminate.
Qed.

(** the place a text denotes is the one its handle points to *)
Lemma ref_lives look h s t d a l : reachable look h s -> denotes t d -> lives s d a l -> (forall v p, cur_phase s p -> vsize v p < 2^31) ->
  exists hd, PyModel.get_ref (AText t) s = (s, RVal (OVar hd)) /\ ref_of hd s = Ok (Some (a, l)) /\
  (refinable hd = true <-> l <> LStepcut /\ l <> LRcut) /\
  ((exists p, In p (s_phases s) /\ ph_addr p = a /\ loc_ok p l = true) \/ (exists e, In e (s_sets s) /\ ds_addr e = a /\ ds_loc_ok l = true)).
Proof.
  intros R D L B. pose proof (SessProof2.reach_inv _ _ _ R) as I. destruct d as [[v i]|name].
  - destruct L as (p & C & -> & Bi & ->). specialize (B v p C). rewrite (ref_indexed t v i s D).
    assert (CI : c_int i = true). { apply c_int_spec. lia. } rewrite CI.
    destruct (SessProof2.get_ref_points v i s p I C Bi B) as [G P]. rewrite G. cbn. eexists. split; [reflexivity|]. split; [exact P|]. split.
    + split; auto. intros _. destruct v; split; discriminate.
    + left. exists p. repeat split. apply C. now apply SessProof2.vloc_ok.
  - destruct (ref_single t name s D) as (v & G & GA & K). rewrite G. exists (HSca v). split; auto.
    destruct L as [(p & C & -> & M)|(e & C & -> & M)].
    + destruct K as [(l' & M' & P)|(l' & M' & P)]; [|exfalso; eapply phase_not_set; eauto].
      assert (l' = l) by (eapply of_phase_fun; eauto). subst l'. destruct (SessProof2.phase_var_scalar v l P) as [V1 V2].
      destruct I as (I & [_ C2] & _). destruct C as [P1 P2]. destruct (C2 p P1 P2) as (_ & _ & R3). unfold ref_of. rewrite (R3 v V1), V2. split; auto. split.
      * destruct v; inversion P; subst; cbn [refinable]; split; intros X; try discriminate; try (split; discriminate); auto; destruct X; congruence.
      * left. exists p. repeat split; auto. destruct v; inversion P; reflexivity.
    + destruct K as [(l' & M' & P)|(l' & M' & P)]; [exfalso; eapply phase_not_set; eauto|].
      assert (l' = l) by (eapply of_set_fun; eauto). subst l'. destruct (SessProof2.set_var_scalar v l P) as [V1 V2].
      destruct I as (I & _ & Dd). destruct C as [P1 P2]. unfold SessProof.cs_ok in Dd. rewrite P2 in Dd. destruct Dd as [_ Dd]. unfold ref_of. rewrite (Dd v V1), V2. split; auto. split.
      * destruct v; inversion P; subst; cbn [refinable]; split; intros X; auto; split; discriminate.
      * right. exists e. repeat split; auto. destruct v; inversion P; reflexivity.
Qed.
(** reading and writing through a text *)
Lemma text_use look h s t d a l : reachable look h s -> denotes t d -> lives s d a l -> (forall v p, cur_phase s p -> vsize v p < 2^31) ->
  exists y, value_at s a l y /\ PyModel.getvar (AText t) s = (s, RVal y) /\
  forall x, exists s', PyModel.setvar (AText t) x s = (s', RVal tt) /\ only_place s s' a l x.
Proof.
  intros R D L B. destruct (ref_lives look h s t d a l R D L B) as (hd & G & P & _ & K). pose proof (SessProof2.reach_inv _ _ _ R) as I.
  unfold PyModel.getvar, PyModel.setvar, with_ref. rewrite G. destruct K as [(p & Ip & <- & O)|(e & Ie & <- & O)].
  - destruct (SessProof2.use_phase_ref hd s p l I Ip P O) as [V W]. exists (ph_val p l). split; [left; eauto|]. rewrite V. split; [reflexivity|].
    intros x. destruct (W x) as (s' & E & Q). rewrite E. exists s'. split; [reflexivity|]. left. eauto.
  - destruct (SessProof2.use_set_ref hd s e l I Ie P O) as [V W]. exists (ds_val e l). split; [right; eauto|]. rewrite V. split; [reflexivity|].
    intros x. destruct (W x) as (s' & E & Q). rewrite E. exists s'. split; [reflexivity|]. right. eauto.
Qed.

(** indices outside the range *)
Definition wrong_index (v : vname) (p : phase) (i : Z) : pyx :=
  if c_int i then XEng (if vsize v p =? 0 then BindModel.XUnassigned else BindModel.XValue) else XOverflow.
Lemma text_outside look h s t v i p : reachable look h s -> denotes t (inl (v, i)) -> cur_phase s p -> vsize v p < 2^31 -> i < 1 \/ vsize v p < i ->
  PyModel.getvar (AText t) s = (s, RExc (wrong_index v p i)) /\ forall x, PyModel.setvar (AText t) x s = (s, RExc (wrong_index v p i)).
Proof.
  intros R D C B O. unfold PyModel.getvar, PyModel.setvar, with_ref. rewrite (ref_indexed t v i s D). unfold wrong_index.
  destruct (c_int i) eqn:E; [|split; reflexivity]. apply c_int_spec in E.
  destruct (SessProof2.indexed_var look h s p v i R C B E) as [_ Q]. rewrite (Q O). destruct (vsize v p =? 0); split; reflexivity.
Qed.
(** nothing loaded *)
Lemma text_unassigned look h s t d : reachable look h s -> Forall (fun o => is_reset o = false) h -> denotes t d ->
  match d with inl _ => s_phases s = [] | inr n => (In n (map fst of_phase) /\ s_phases s = []) \/ (In n (map fst of_set) /\ s_sets s = []) end ->
  (match d with inl (v, i) => -2^31 <= i < 2^31 | inr _ => True end) ->
  PyModel.getvar (AText t) s = (s, RExc (XEng BindModel.XUnassigned)) /\ forall x, PyModel.setvar (AText t) x s = (s, RExc (XEng BindModel.XUnassigned)).
Proof.
  intros R N D L B. destruct (SessProof2.unassigned_before_load look h s R N) as [U1 U2]. unfold PyModel.getvar, PyModel.setvar, with_ref. destruct d as [[v i]|name].
  - rewrite (ref_indexed t v i s D). apply c_int_spec in B. rewrite B. destruct (U1 L) as [U _]. rewrite (U v i). split; reflexivity.
  - destruct (ref_single t name s D) as (v & G & _ & K). rewrite G.
    assert (X : SessModel.getvar (HSca v) s = Err ErrUnassigned /\ forall x, SessModel.setvar (HSca v) x s = (s, Err ErrUnassigned)).
    { destruct L as [[L1 L2]|[L1 L2]]; apply in_map_iff in L1; destruct L1 as ([n l] & E & L1); cbn in E; subst n; destruct K as [(l' & M & P)|(l' & M & P)];
        try (exfalso; eapply phase_not_set; eauto; fail). destruct (U1 L2) as [_ W]. eapply W; eauto. eapply (U2 L2); eauto. }
    destruct X as [X1 X2]. rewrite X1. split; [reflexivity|]. intros x. rewrite X2. reflexivity.
Qed.

(** * what can happen *)
Lemma end_call_fst f s : fst (end_call f s) = fst (f s).
Proof. unfold end_call. destruct (f s). reflexivity. Qed.
Lemma begins_apart t name o : take_apart t = (name, o) -> begins_with name t.
Proof.
  intros E. apply apart_inv in E. destruct o as [i|].
  - destruct E as (b1 & b2 & r1 & b3 & w & b4 & r2 & -> & W & _). exists b1. eexists. split; [|exact W]. reflexivity.
  - destruct E as (b1 & b2 & -> & W & _). exists b1, b2. auto.
Qed.
Lemma ref_state t s : fst (PyModel.get_ref (AText t) s) = s \/ exists n, In n acting /\ begins_with n t.
Proof.
  unfold PyModel.get_ref. cbn [convert]. destruct (take_apart t) as [name o] eqn:E. pose proof (begins_apart _ _ _ E) as W.
  destruct (getattr name) as [k|] eqn:G; [|now left]. pose proof (getattr_cases _ _ G) as K. unfold kind_ok in K. cbn [fst snd] in K.
  destruct k as [v|v|f0 f1|a0 a1].
  - left. destruct o; reflexivity.
  - left. destruct o; reflexivity.
  - destruct K as [_ [K|[K0 K1]]]; [right; exists name; auto|]. left. destruct o as [i|], f0 as [f0|], f1 as [f1|]; cbn [call]; auto.
    + destruct (c_int i); auto. rewrite end_call_fst. now apply K1.
    + destruct (c_int i); auto. rewrite end_call_fst. now apply K1.
    + rewrite end_call_fst. now apply K0.
    + rewrite end_call_fst. now apply K0.
  - left. destruct o, a0, a1; reflexivity.
Qed.
Lemma getvar_state t s : fst (PyModel.getvar (AText t) s) = s \/ exists n, In n acting /\ begins_with n t.
Proof.
  destruct (ref_state t s) as [E|E]; [|now right]. left. unfold PyModel.getvar, with_ref. destruct (PyModel.get_ref (AText t) s) as [s' r]. cbn in E. subst s'.
  destruct r as [[hd|]| | | | |]; reflexivity.
Qed.
Lemma setvar_state t x s : fst (PyModel.setvar (AText t) x s) = s \/ snd (PyModel.setvar (AText t) x s) = RVal tt \/ exists n, In n acting /\ begins_with n t.
Proof.
  destruct (ref_state t s) as [E|E]; [|now right; right]. unfold PyModel.setvar, with_ref. destruct (PyModel.get_ref (AText t) s) as [s' r]. cbn in E. subst s'.
  destruct r as [[hd|]| | | | |]; auto. unfold SessModel.setvar. destruct (ref_of hd s) as [[[a l]|]| | |]; auto. destruct (load s a l); auto.
Qed.

(** a call that succeeds has read a variable the text denotes *)
Lemma ref_ok look h s t s' hd : reachable look h s -> PyModel.get_ref (AText t) s = (s', RVal (OVar hd)) ->
  s' = s /\ exists d, denotes t d /\ match d with
  | inl (v, i) => c_int i = true /\ SessModel.get_ref v i s = Ok hd
  | inr n => exists v, hd = HSca v /\ ((exists l, In (n, l) of_phase /\ phase_var v = Some l) \/ (exists l, In (n, l) of_set /\ set_var v = Some l)) end.
Proof.
  intros R. unfold PyModel.get_ref. cbn [convert]. destruct (take_apart t) as [name o] eqn:E. apply apart_inv in E.
  destruct (getattr name) as [k|] eqn:G; [|discriminate]. pose proof (getattr_cases _ _ G) as K. unfold kind_ok in K. cbn [fst snd] in K.
  assert (EC : forall f, end_call f s = (s', RVal (OVar hd)) -> False).
  { intros f. unfold end_call. destruct (f s) as [q [u|e| |]]; cbn; try discriminate. destruct (BindModel.c_unassigned e); discriminate. }
  destruct k as [v|v|f0 f1|a0 a1]; destruct o as [i|]; cbn [call]; intros Q; try discriminate.
  - destruct (c_int i) eqn:CI; [|discriminate]. destruct (SessModel.get_ref v i s) as [hd'|e| |] eqn:GR; cbn in Q; try discriminate; [|destruct (BindModel.c_value_unassigned e); discriminate].
    injection Q as <- <-. split; auto. exists (inl (v, i)). split; [|auto]. destruct E as (b1 & b2 & r1 & b3 & w & b4 & r2 & -> & W1 & W2 & W3 & W4 & W5 & W6 & W7). now constructor.
  - injection Q as <- <-. split; auto. exists (inr name). split; [|eauto]. destruct E as (b1 & b2 & -> & W1 & W2). constructor; auto. apply in_or_app.
    destruct K as [(l & M & _)|(l & M & _)]; [left|right]; apply in_map_iff; exists (name, l); auto.
  - exfalso. destruct f0, f1; cbn [call] in Q; try discriminate; destruct (c_int i); try discriminate; eapply EC; eauto.
  - exfalso. destruct f0, f1; cbn [call] in Q; try discriminate; eapply EC; eauto.
  - destruct a0, a1; discriminate.
  - destruct a0, a1; discriminate.
Qed.
Lemma phase_or_none look h s : reachable look h s -> (exists p, cur_phase s p) \/ s_phases s = [].
Proof.
  intros R. pose proof (SessProof2.reach_inv _ _ _ R) as (_ & [C _] & _). destruct (s_curphase s) as [a|] eqn:E; [|auto]. left.
  apply in_map_iff in C. destruct C as (p & <- & I). exists p. split; auto.
Qed.
Lemma set_or_none look h s : reachable look h s -> (exists e, cur_set s e) \/ s_sets s = [].
Proof.
  intros R. pose proof (SessProof2.reach_inv _ _ _ R) as (_ & _ & C). unfold SessProof.cs_ok in C. destruct (s_curset s) as [a|] eqn:E; [|auto]. left.
  destruct C as [C _]. apply in_map_iff in C. destruct C as (p & <- & I). exists p. split; auto.
Qed.
(** whether a place exists for what is denoted *)
Lemma lives_dec look h s d : reachable look h s -> match d with inl _ => True | inr n => In n (map fst of_phase ++ map fst of_set) end ->
  (exists a l, lives s d a l) \/
  match d with
  | inl (v, i) => s_phases s = [] \/ exists p, cur_phase s p /\ (i < 1 \/ vsize v p < i)
  | inr n => (In n (map fst of_phase) /\ s_phases s = []) \/ (In n (map fst of_set) /\ s_sets s = []) end.
Proof.
  intros R O. destruct d as [[v i]|n].
  - destruct (phase_or_none look h s R) as [(p & C)|E]; [|auto]. destruct (Z_lt_le_dec i 1); [right; right; eauto|]. destruct (Z_lt_le_dec (vsize v p) i); [right; right; eauto|].
    left. do 2 eexists. exists p. repeat split; eauto; apply C.
  - apply in_app_or in O. destruct O as [O|O].
    + destruct (phase_or_none look h s R) as [(p & C)|E]; [|auto]. pose proof O as O'. apply in_map_iff in O'. destruct O' as ([m l] & E & I). cbn in E. subst m.
      left. exists (ph_addr p), l. left. exists p. auto.
    + destruct (set_or_none look h s R) as [(p & C)|E]; [|auto]. pose proof O as O'. apply in_map_iff in O'. destruct O' as ([m l] & E & I). cbn in E. subst m.
      left. exists (ds_addr p), l. right. exists p. auto.
Qed.
Lemma denotes_name t n : denotes t (inr n) -> In n (map fst of_phase ++ map fst of_set).
Proof. intros D. now inversion D. Qed.
(** every text that denotes something: what getvar does *)
Lemma denotes_cases look h s t d : reachable look h s -> denotes t d -> (forall v p, cur_phase s p -> vsize v p < 2^31) ->
  (s_phases s = [] \/ s_sets s = [] -> Forall (fun o => is_reset o = false) h) ->
  (exists a l, lives s d a l) \/ exists e, PyModel.getvar (AText t) s = (s, RExc e) /\ forall x, PyModel.setvar (AText t) x s = (s, RExc e).
Proof.
  intros R D B N. destruct (lives_dec look h s d R) as [L|L]; auto. { destruct d; auto. now apply denotes_name in D. }
  right. destruct d as [[v i]|n].
  - destruct L as [E|(p & C & O)].
    + unfold PyModel.getvar, PyModel.setvar, with_ref. rewrite (ref_indexed t v i s D). destruct (c_int i); [|eauto].
      destruct (SessProof2.unassigned_before_load look h s R (N (or_introl E))) as [U _]. destruct (U E) as [U' _]. rewrite (U' v i). cbn. eauto.
    + eexists. eapply text_outside; eauto.
  - exists (XEng BindModel.XUnassigned). apply (text_unassigned look h s t (inr n)); auto. destruct L as [[_ L]|[_ L]]; auto.
Qed.
Lemma getvar_only look h s t s' y : reachable look h s -> (forall v p, cur_phase s p -> vsize v p < 2^31) ->
  (s_phases s = [] \/ s_sets s = [] -> Forall (fun o => is_reset o = false) h) ->
  PyModel.getvar (AText t) s = (s', RVal y) -> s' = s /\ exists d a l, denotes t d /\ lives s d a l /\ value_at s a l y.
Proof.
  intros R B N Q. assert (D : exists d, denotes t d).
  { revert Q. unfold PyModel.getvar, with_ref. destruct (PyModel.get_ref (AText t) s) as [q [[hd|]| | | | |]] eqn:G; try discriminate.
    intros _. destruct (ref_ok look h s t q hd R G) as (_ & d & D & _). eauto. }
  destruct D as (d & D). destruct (denotes_cases look h s t d R D B N) as [(a & l & L)|(e & E & _)]; [|congruence].
  destruct (text_use look h s t d a l R D L B) as (z & V & G & _). rewrite G in Q. injection Q as <- <-. eauto 8.
Qed.
Lemma setvar_only look h s t x s' : reachable look h s -> (forall v p, cur_phase s p -> vsize v p < 2^31) ->
  (s_phases s = [] \/ s_sets s = [] -> Forall (fun o => is_reset o = false) h) ->
  PyModel.setvar (AText t) x s = (s', RVal tt) -> exists d a l, denotes t d /\ lives s d a l /\ only_place s s' a l x.
Proof.
  intros R B N Q. assert (D : exists d, denotes t d).
  { revert Q. unfold PyModel.setvar, with_ref. destruct (PyModel.get_ref (AText t) s) as [q [[hd|]| | | | |]] eqn:G; try discriminate.
    intros _. destruct (ref_ok look h s t q hd R G) as (_ & d & D & _). eauto. }
  destruct D as (d & D). destruct (denotes_cases look h s t d R D B N) as [(a & l & L)|(e & _ & E)]; [|rewrite E in Q; congruence].
  destruct (text_use look h s t d a l R D L B) as (z & V & _ & G). destruct (G x) as (s2 & E & O). rewrite E in Q. injection Q as <-. eauto 8.
Qed.

(** * AttributeError *)
Lemma known_wordy name k : getattr name = Some k -> wordy name.
Proof.
  revert name k. apply (methods_all (fun p => wordy (fst p))). unfold methods. cbn [map fst snd].
  repeat (apply Forall_cons || apply Forall_nil); (split; [discriminate|reflexivity]).
Qed.
Lemma known_getattr name : In name known <-> getattr name <> None.
Proof.
  unfold known. rewrite !in_app_iff, !in_map_iff. split.
  - intros [([n v] & E & I)|[([n v] & E & I)|[([n v] & E & I)|I]]]; cbn [fst] in *; subst.
    + rewrite (getattr_indexed _ _ I). discriminate.
    + destruct (getattr_phase _ _ I) as (w & G & _). congruence.
    + destruct (getattr_set _ _ I) as (w & G & _). congruence.
    + assert (A : forallb (fun n => match getattr n with Some _ => true | None => false end) functions = true) by (vm_compute; reflexivity). rewrite forallb_forall in A. specialize (A _ I). destruct (getattr name); [discriminate|congruence].
  - intros H. destruct (getattr name) as [k|] eqn:G; [|congruence]. pose proof (getattr_cases _ _ G) as K. unfold kind_ok in K. cbn [fst snd] in K.
    destruct k as [v|v|f0 f1|a0 a1].
    + left. exists (name, v). auto.
    + destruct K as [(l & M & _)|(l & M & _)]; [right; left|right; right; left]; exists (name, l); auto.
    + right. right. right. apply K.
    + auto.
Qed.
Lemma shaped_apart name t o : In name known -> shaped name t o -> take_apart t = (name, o).
Proof.
  intros K H. apply known_getattr in K. destruct (getattr name) as [k|] eqn:G; [|congruence]. apply known_wordy in G. destruct o as [i|].
  - destruct H as (b1 & b2 & r1 & b3 & w & b4 & r2 & -> & W1 & W2 & W3 & W4 & W5 & W6 & W7). now apply apart_indexed.
  - destruct H as (b1 & b2 & -> & W1 & W2). now apply apart_single.
Qed.
Lemma apart_shaped name t o : take_apart t = (name, o) -> shaped name t o.
Proof. intros E. apply apart_inv in E. destruct o; exact E. Qed.
Lemma call_no_attribute k o s : snd (call k o s) <> RExc XAttribute.
Proof.
  assert (FE : forall c (r : outcome pyobj), from_ext (BindModel.catching c r) <> RExc XAttribute). { intros c [u|e| |]; cbn; try discriminate. destruct (c e); discriminate. }
  assert (EC : forall f, snd (end_call f s) <> RExc XAttribute). { intros f. unfold end_call. destruct (f s) as [q r]. apply FE. }
  destruct k as [v|v|[f0|] [f1|]|[|] [|]]; destruct o as [i|]; cbn [call snd]; try discriminate; try apply EC; destruct (c_int i); try discriminate; try apply EC; apply FE.
Qed.
Lemma attribute_iff t s :
  (PyModel.getvar (AText t) s = (s, RExc XAttribute) <-> ~ exists name o, In name known /\ shaped name t o) /\
  (forall x, PyModel.setvar (AText t) x s = (s, RExc XAttribute) <-> ~ exists name o, In name known /\ shaped name t o) /\
  (snd (PyModel.getvar (AText t) s) = RExc XAttribute -> fst (PyModel.getvar (AText t) s) = s).
Proof.
  unfold PyModel.getvar, PyModel.setvar, with_ref, PyModel.get_ref. cbn [convert]. destruct (take_apart t) as [name o] eqn:E.
  assert (FE : forall A c (r : outcome A), from_ext (BindModel.catching c r) <> RExc XAttribute). { intros A c [u|e| |]; cbn; try discriminate. destruct (c e); discriminate. }
  destruct (getattr name) as [k|] eqn:G.
  - assert (K : exists name o, In name known /\ shaped name t o). { exists name, o. split. apply known_getattr. congruence. now apply apart_shaped. }
    pose proof (call_no_attribute k o s) as NA. destruct (call k o s) as [s' r]. cbn [snd] in NA. split; [|split].
    + split; [|tauto]. intros Q. exfalso. destruct r as [[hd|]| | | | |]; try discriminate; injection Q as Q1 Q2; try congruence; eapply FE; eauto.
    + intros x. split; [|tauto]. intros Q. exfalso. destruct r as [[hd|]| | | | |]; try discriminate; try (injection Q as Q1 Q2; congruence).
      destruct (SessModel.setvar hd x s') as [s2 r]. injection Q as Q1 Q2. eapply FE; eauto.
    + intros Q. exfalso. destruct r as [[hd|]| | | | |]; cbn [snd] in Q; try discriminate; try congruence; eapply FE; eauto.
  - assert (K : ~ exists name o, In name known /\ shaped name t o).
    { intros (n' & o' & K & H). pose proof (shaped_apart _ _ _ K H) as E'. apply known_getattr in K. congruence. }
    split; [|split]; try (intros x); try (split; intros; [exact K|reflexivity]); reflexivity.
Qed.
(** a name with an index too many or too few *)
Lemma arity t s name o : shaped name t o -> match o with None => In name (map fst indexed) | Some _ => In name (map fst of_phase ++ map fst of_set) end ->
  PyModel.getvar (AText t) s = (s, RExc XType) /\ forall x, PyModel.setvar (AText t) x s = (s, RExc XType).
Proof.
  intros H K. unfold PyModel.getvar, PyModel.setvar, with_ref, PyModel.get_ref. cbn [convert].
  rewrite (shaped_apart name t o); auto.
  2:{ unfold known. destruct o; rewrite ?in_app_iff in *; tauto. }
  destruct o as [i|].
  - apply in_app_or in K. rewrite !in_map_iff in K. destruct K as [([n l] & E & I)|([n l] & E & I)]; cbn [fst] in E; subst n.
    + destruct (getattr_phase _ _ I) as (v & -> & _). split; reflexivity.
    + destruct (getattr_set _ _ I) as (v & -> & _). split; reflexivity.
  - rewrite in_map_iff in K. destruct K as ([n l] & E & I); cbn [fst] in E; subst n. rewrite (getattr_indexed _ _ I). split; reflexivity.
Qed.
