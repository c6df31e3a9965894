(** Proofs for C67. *)
From Coq Require Import List ZArith Bool Lia.
From Verif Require Import Base RedirModel RedirSpec.
Import ListNotations.
Local Open Scope Z_scope.

Lemma run_app : forall l1 l2 s, run (l1 ++ l2) s = obind (run l1 s) (run l2).
Proof.
  induction l1 as [|e r IH]; intros l2 s; [reflexivity|]. cbn [app run].
  destruct (event_run e s); cbn [obind]; auto.
Qed.
Lemma chosen_app : forall l e, chosen (l ++ [e]) = choose e (chosen l).
Proof. intros. unfold chosen. rewrite fold_left_app. reflexivity. Qed.

Ltac cases := cbn; repeat match goal with |- context [if ?b then _ else _] => destruct b end; rewrite ?app_nil_r; reflexivity.
(** ** What holds in every run *)
Definition inv (c : option nat) (s : ost) : Prop :=
  pybuf s = c /\ (pout s = None <-> c = None) /\ forall f, refs s f = match c with Some g => if Nat.eqb f g then 1 else 0 | None => 0 end.
Lemma inv_init : inv None init.
Proof. repeat split; auto. Qed.
Lemma inv_write : forall gil t c s s', inv c s -> engine_write gil t s = Ok s' -> inv c s'.
Proof.
  intros gil t c s s' H E. unfold engine_write in E. destruct (pout s) as [[|k]|] eqn:P.
  - destruct (pybuf s) eqn:B; [|discriminate]. destruct gil; [|discriminate]. injection E as <-. exact H.
  - destruct (held_of k (held s)); [|discriminate]. injection E as <-. destruct H as (A & B & C). rewrite P in B. split; [exact A|]; split; [exact B|exact C].
  - injection E as <-. exact H.
Qed.
Lemma inv_event : forall e c s s', inv c s -> event_run e s = Ok s' -> inv (choose e c) s'.
Proof.
  intros e c s s' H E. destruct e as [f ok| |t|t|k|k t|k]; cbn [event_run choose] in *.
  - unfold redirect, redirect_engine in E. destruct ok; [|injection E as <-; exact H]. injection E as <-.
    destruct H as (A & B & C). unfold inv; cbn. repeat split; try discriminate.
    + destruct (pout s); discriminate.
    + intro g. unfold addref. rewrite A. specialize (C g). destruct c as [h|].
      * destruct (Nat.eqb g h) eqn:E1; destruct (Nat.eqb g f) eqn:E2; rewrite C; reflexivity.
      * destruct (Nat.eqb g f) eqn:E2; rewrite C; reflexivity.
  - injection E as <-. destruct H as (A & B & C). unfold inv; cbn. repeat split; auto.
    intro g. specialize (C g). rewrite A. unfold addref. destruct c as [h|]; [|exact C]. rewrite C. destruct (Nat.eqb g h); reflexivity.
  - exact (inv_write _ _ _ _ _ H E).
  - injection E as <-. exact H.
  - unfold step_begin in E. destruct H as (A & B & C). destruct (pybuf s) eqn:P.
    + destruct (pout s) eqn:Q; [|discriminate]. injection E as <-. unfold inv; cbn. subst c. repeat split; auto; discriminate.
    + injection E as <-. split; [exact A|]; split; [exact B|exact C].
  - exact (inv_write _ _ _ _ _ H E).
  - unfold step_end in E. destruct (held_of k (held s)) eqn:Hh; [|discriminate]. destruct (pybuf s) eqn:P.
    + destruct (pout s) eqn:Q; [|discriminate]. refine (inv_write _ _ _ _ _ _ E). destruct H as (A & B & C). unfold inv; cbn. rewrite P in A. subst c. repeat split; auto; discriminate.
    + injection E as <-. destruct H as (A & B & C). rewrite P in A. split; [exact A|]; split; [exact B|exact C].
Qed.
Lemma inv_run : forall l c s s', inv c s -> run l s = Ok s' -> inv (fold_left (fun c e => choose e c) l c) s'.
Proof.
  induction l as [|e r IH]; intros c s s' H E; cbn [run fold_left] in *.
  - injection E as <-. exact H.
  - destruct (event_run e s) as [s1| | |] eqn:E1; try discriminate. exact (IH _ _ _ (inv_event _ _ _ _ H E1) E).
Qed.
Lemma references : forall l s, run l init = Ok s ->
  (forall f, refs s f = 1 <-> chosen l = Some f) /\ forall f, chosen l <> Some f -> refs s f = 0.
Proof.
  intros l s E. destruct (inv_run l None init s inv_init E) as (_ & _ & C). fold (chosen l) in C. split; intro f; specialize (C f); destruct (chosen l) as [g|].
  - destruct (Nat.eqb_spec f g) as [->|N]; split; intro H; try congruence.
  - split; intro H; [rewrite C in H; discriminate H|discriminate H].
  - intro N. destruct (Nat.eqb_spec f g) as [->|N']; [congruence|exact C].
  - intros _. exact C.
Qed.

(** ** A single refine_step at a time *)
Definition hold (r : option (nat * text)) : list (nat * text) := match r with Some p => [p] | None => [] end.
Definition steady (c : option nat) (r : option (nat * text)) (s : ost) : Prop :=
  pybuf s = c /\ held s = hold r /\
  pout s = match c with None => None | Some _ => match r with Some (k, _) => Some (BMsg k) | None => Some BPy end end.
(** text not yet delivered *)
Definition waiting (c : option nat) (r : option (nat * text)) (d : dest) : text :=
  match c, r with Some f, Some (_, t) => if dest_eqb (DFile f) d then t else [] | _, _ => [] end.
Definition live_of (r : option (nat * text)) : list nat := match r with Some (k, _) => [k] | None => [] end.
Definition busy (r : option (nat * text)) : bool := match r with Some _ => true | None => false end.

Lemma eng_write : forall gil t c r s, steady c r s -> (gil = true \/ busy r = true) ->
  exists r' s', engine_write gil t s = Ok s' /\ steady c r' s' /\ live_of r' = live_of r /\ busy r' = busy r /\
  (forall d, arrived engine_only d (log s') ++ waiting c r' d = (arrived engine_only d (log s) ++ waiting c r d) ++ (if dest_eqb (place c) d then t else [])).
Proof.
  intros gil t c r s (A & B & C) G. unfold engine_write. rewrite C, A, B. destruct c as [f|].
  - destruct r as [[k u]|].
    + cbn [hold held_of held_add]. rewrite Nat.eqb_refl. eexists (Some (k, u ++ t)), _. split; [reflexivity|]. repeat split; auto. intro d.
      cbn [log waiting place]. destruct (dest_eqb (DFile f) d); [|rewrite !app_nil_r; reflexivity]. rewrite app_assoc. reflexivity.
    + destruct G as [->|G]; [|discriminate G]. eexists None, _. split; [reflexivity|]. repeat split; auto. intro d. cbn. rewrite !app_nil_r. reflexivity.
  - eexists r, _. split; [reflexivity|]. repeat split; auto. intro d. cbn. rewrite !app_nil_r. reflexivity.
Qed.

Lemma calm_run : forall l c r s, steady c r s -> possible (live_of r) l -> calm (busy r) l ->
  exists c' r' s', run l s = Ok s' /\ steady c' r' s' /\ live_of r' = under_way (live_of r) l /\
  (forall d, arrived engine_only d (log s') ++ waiting c' r' d = (arrived engine_only d (log s) ++ waiting c r d) ++ wanted engine_text d c l).
Proof.
  induction l as [|e q IH]; intros c r s St Po Ca.
  - exists c, r, s. repeat split; try apply St. intro d. cbn. rewrite app_nil_r. reflexivity.
  - assert (Go : forall c1 r1 s1, event_run e s = Ok s1 -> steady c1 r1 s1 -> possible (live_of r1) q -> calm (busy r1) q ->
      choose e c = c1 -> under_way (live_of r) (e :: q) = under_way (live_of r1) q ->
      (forall d, arrived engine_only d (log s1) ++ waiting c1 r1 d = (arrived engine_only d (log s) ++ waiting c r d) ++ (if dest_eqb (place c) d then engine_text e else [])) ->
      exists c' r' s', run (e :: q) s = Ok s' /\ steady c' r' s' /\ live_of r' = under_way (live_of r) (e :: q) /\
      (forall d, arrived engine_only d (log s') ++ waiting c' r' d = (arrived engine_only d (log s) ++ waiting c r d) ++ wanted engine_text d c (e :: q))).
    { intros c1 r1 s1 E1 S1 P1 C1 Ch U W. destruct (IH c1 r1 s1 S1 P1 C1) as (c' & r' & s' & E' & S' & L' & W').
      exists c', r', s'. cbn [run]. rewrite E1. split; [exact E'|]. split; [exact S'|]. split; [rewrite U; exact L'|].
      intro d. rewrite W', W. cbn [wanted]. rewrite Ch, <- app_assoc. reflexivity. }
    destruct e as [f ok| |t|t|k|k t|k]; cbn [event_run] in *.
    + destruct ok.
      * cbn [calm possible] in *. destruct Ca as [Nb Ca]. destruct r as [x|]; [discriminate Nb|]. destruct St as (A & B & C).
        eapply (Go (Some f) None); try reflexivity; auto.
        { unfold redirect, redirect_engine. repeat split; cbn; auto. rewrite C. destruct c; reflexivity. }
        intro d. destruct c, d; cases.
      * cbn [calm possible] in *. eapply (Go c r s); try reflexivity; auto. intro d. destruct c, d; cases.
    + cbn [calm possible] in *. destruct Ca as [Nb Ca]. destruct r as [x|]; [discriminate Nb|]. destruct St as (A & B & C).
      eapply (Go None None); try reflexivity; auto.
      { unfold restore, restore_engine. repeat split; cbn; auto. }
      intro d. destruct c, d; cases.
    + cbn [calm possible] in *. destruct (eng_write true t c r s St (or_introl eq_refl)) as (r1 & s1 & E1 & S1 & L1 & B1 & W1).
      rewrite <- L1 in Po. rewrite <- B1 in Ca. eapply (Go c r1 s1); auto. cbn [under_way]. rewrite L1. reflexivity.
    + cbn [calm possible] in *. eapply (Go c r); try reflexivity; auto. intro d. destruct c, d; cases.
    + cbn [calm possible] in *. destruct Ca as [Nb Ca]. destruct r as [x|]; [discriminate Nb|]. destruct Po as [_ Po].
      destruct St as (A & B & C). unfold step_begin in *. rewrite A, C in *. destruct c as [f|].
      * eapply (Go (Some f) (Some (k, []))); try reflexivity; auto.
        { repeat split; cbn; auto. rewrite B. reflexivity. }
        intro d. destruct d; cases.
      * eapply (Go None (Some (k, []))); try reflexivity; auto.
        { repeat split; cbn; auto. rewrite B. reflexivity. }
        intro d. destruct d; cases.
    + cbn [calm possible] in *. destruct Po as [Lk Po].
      assert (Bu : busy r = true) by (destruct r; [reflexivity|contradiction]).
      destruct (eng_write false t c r s St (or_intror Bu)) as (r1 & s1 & E1 & S1 & L1 & B1 & W1).
      rewrite <- L1 in Po. rewrite <- B1 in Ca. eapply (Go c r1 s1); auto. cbn [under_way]. rewrite L1. reflexivity.
    + cbn [calm possible] in *. destruct Po as [Lk Po]. destruct r as [[j u]|]; [|contradiction]. destruct Lk as [Lk|[]]. cbn in Lk. subst j.
      assert (Re : remove Nat.eq_dec k (live_of (Some (k, u))) = []) by (cbn; destruct (Nat.eq_dec k k); [reflexivity|contradiction]).
      rewrite Re in Po. destruct St as (A & B & C). unfold step_end in *. rewrite A, B, C in *. cbn [hold held_of] in *. rewrite Nat.eqb_refl in *.
      assert (De : held_del k [(k, u)] = []) by (unfold held_del; cbn; rewrite Nat.eqb_refl; reflexivity).
      destruct c as [f|].
      * eapply (Go (Some f) None); [reflexivity| |exact Po|exact Ca|reflexivity| |].
        { repeat split; cbn; auto. }
        { cbn [under_way]. rewrite Re. reflexivity. }
        intro d. destruct d; cases.
      * eapply (Go None None); [reflexivity| |exact Po|exact Ca|reflexivity| |].
        { repeat split; cbn; auto. }
        { cbn [under_way]. rewrite Re. reflexivity. }
        intro d. destruct d; cases.
Qed.
Lemma steady_init : steady None None init.
Proof. repeat split. Qed.
Lemma one_step : forall l, possible [] l -> calm false l -> under_way [] l = [] ->
  exists s, run l init = Ok s /\ forall d, arrived engine_only d (log s) = wanted engine_text d None l.
Proof.
  intros l P C U. destruct (calm_run l None None init steady_init P C) as (c & r & s & E & S' & L & W).
  exists s. split; [exact E|]. intro d. specialize (W d). cbn [live_of] in L. rewrite U in L.
  destruct r as [[k t]|]; [discriminate L|]. destruct c; cbn [waiting] in W; rewrite app_nil_r in W; exact W.
Qed.

(** ** Calls one after the other *)
Lemma events_calm : forall p l, (possible [] l /\ calm false l /\ under_way [] l = []) ->
  possible [] (events p ++ l) /\ calm false (events p ++ l) /\ under_way [] (events p ++ l) = [].
Proof.
  induction p as [|c p IH]; intros l H; [exact H|]. unfold events in *. cbn [flat_map]. rewrite <- app_assoc. specialize (IH l H).
  destruct c as [f ok| |t|t|ts]; cbn [events_of app].
  - destruct ok; cbn; intuition.
  - cbn; intuition.
  - cbn; intuition.
  - cbn; intuition.
  - assert (G : forall ts m, possible [] m /\ calm false m /\ under_way [] m = [] ->
      possible [0%nat] ((map (EStep 0) ts ++ [EEnd 0]) ++ m) /\ calm true ((map (EStep 0) ts ++ [EEnd 0]) ++ m) /\ under_way [0%nat] ((map (EStep 0) ts ++ [EEnd 0]) ++ m) = []).
    { clear. induction ts as [|t ts IHt]; intros m H; cbn; [intuition|]. destruct (IHt m H) as (A & B & C). intuition. }
    destruct (G ts _ IH) as (A & B & C). cbn. intuition.
Qed.
Lemma one_thread : forall p, exists s, run (events p) init = Ok s /\ held s = [] /\ forall d, arrived engine_only d (log s) = wanted engine_text d None (events p).
Proof.
  intro p. destruct (events_calm p []) as (A & B & C); [cbn; auto|]. rewrite app_nil_r in *.
  destruct (calm_run _ None None init steady_init A B) as (c & r & s & E & S' & L & W).
  exists s. split; [exact E|]. cbn [live_of] in L. rewrite C in L. destruct r as [[k t]|]; [discriminate L|]. split; [apply S'|].
  intro d. specialize (W d). destruct c; cbn [waiting] in W; rewrite app_nil_r in W; exact W.
Qed.

(** ** Output of the class and of the engine together *)
Definition both (c : option nat) (s : ost) : Prop := steady c None s /\ pystd s = match c with Some f => DFile f | None => DSys end.
Lemma steps_text : forall ts f s u k, pybuf s = Some f -> pout s = Some (BMsg k) -> held s = [(k, u)] ->
  run (map (EStep k) ts) s = Ok (mk (pout s) (pybuf s) [(k, u ++ concat ts)] (pystd s) (refs s) (log s)).
Proof.
  induction ts as [|t ts IH]; intros f s u k A B C; cbn [map run event_run].
  - destruct s; cbn in *; subst. rewrite app_nil_r. reflexivity.
  - unfold engine_write at 1. rewrite B, C. cbn [held_of held_add]. rewrite Nat.eqb_refl. cbn [obind].
    rewrite (IH f _ (u ++ t) k); cbn; auto. rewrite <- app_assoc. reflexivity.
Qed.
Lemma steps_out : forall ts s, pybuf s = None -> pout s = None ->
  exists s', run (map (EStep 0) ts) s = Ok s' /\ pybuf s' = None /\ pout s' = None /\ held s' = held s /\ pystd s' = pystd s /\
    forall f, arrived everyone (DFile f) (log s') = arrived everyone (DFile f) (log s).
Proof.
  induction ts as [|t ts IH]; intros s A B; cbn [map run event_run].
  - exists s. repeat split; auto.
  - unfold engine_write at 1. rewrite B. cbn [obind]. destruct (IH (arrive Engine DCout t s)) as (s' & E & H1 & H2 & H3 & H4 & H5); auto.
    exists s'. repeat split; auto. intro f. rewrite H5. cbn. rewrite app_nil_r. reflexivity.
Qed.
Lemma wanted_app : forall w d l1 l2 c, wanted w d c (l1 ++ l2) = wanted w d c l1 ++ wanted w d (fold_left (fun c e => choose e c) l1 c) l2.
Proof. induction l1 as [|e r IH]; intros l2 c; cbn [app wanted fold_left]; [reflexivity|]. rewrite IH, app_assoc. reflexivity. Qed.
Lemma steps_choose : forall k ts c, fold_left (fun c e => choose e c) (map (EStep k) ts) c = c.
Proof. induction ts as [|t ts IH]; intro c; cbn; auto. Qed.
Lemma steps_wanted : forall k ts d c, wanted any_text d c (map (EStep k) ts) = if dest_eqb (place c) d then concat ts else [].
Proof. induction ts as [|t ts IH]; intros d c; cbn [map wanted any_text choose concat]; [destruct (dest_eqb _ _); reflexivity|]. rewrite IH. destruct (dest_eqb _ _); reflexivity. Qed.

Lemma call_both : forall x c s, both c s -> x <> CRestore ->
  exists s', run (events_of x) s = Ok s' /\ both (fold_left (fun c e => choose e c) (events_of x) c) s' /\
  forall f, arrived everyone (DFile f) (log s') = arrived everyone (DFile f) (log s) ++ wanted any_text (DFile f) c (events_of x).
Proof.
  intros x c s [(A & B & C) D] N. destruct x as [f ok| |t|t|ts]; [| |idtac|idtac|idtac]; cbn [events_of].
  - destruct ok; cbn [run event_run redirect redirect_engine obind].
    + eexists. split; [reflexivity|]. split.
      * unfold both, steady; cbn. repeat split; auto. rewrite C. destruct c; reflexivity.
      * intro g. destruct c; cases.
    + eexists. split; [reflexivity|]. split; [repeat split; auto|]. intro g. destruct c; cases.
  - contradiction.
  - cbn [run event_run]. unfold engine_write. rewrite C, A. destruct c as [f|]; cbn [obind].
    + eexists. split; [reflexivity|]. split; [repeat split; auto|]. intro g. cbn. rewrite app_nil_r. reflexivity.
    + eexists. split; [reflexivity|]. split; [repeat split; auto|]. intro g. cbn. reflexivity.
  - cbn [run event_run obind]. eexists. split; [reflexivity|]. split; [repeat split; auto|]. intro g. cbn. rewrite D. destruct c as [f|]; cbn; rewrite ?app_nil_r; reflexivity.
  - cbn [run event_run]. unfold step_begin. rewrite A, C, B. cbn [hold]. destruct c as [f|]; cbn [obind]; rewrite run_app.
    + rewrite (steps_text ts f _ [] 0%nat); try reflexivity. cbn [obind run event_run step_end held held_of pybuf pout Nat.eqb held_del filter fst negb engine_write app arrive].
      eexists. split; [reflexivity|]. split.
      * cbn [fold_left choose]. rewrite fold_left_app, steps_choose. repeat split; auto.
      * intro g. cbn [wanted any_text]. rewrite wanted_app, steps_wanted, steps_choose. cbn. destruct (Nat.eqb f g); rewrite ?app_nil_r; reflexivity.
    + destruct (steps_out ts (mk None None [(0%nat, [])] (pystd s) (refs s) (log s))) as (s1 & E1 & H1 & H2 & H3 & H4 & H5); auto.
      match goal with |- context [run (map (EStep 0) ts) ?x] => change x with (mk None None [(0%nat, [])] (pystd s) (refs s) (log s)) end.
      rewrite E1. cbn [obind run event_run]. unfold step_end. rewrite H1, H2, H3. cbn [held held_of Nat.eqb obind held_del filter fst negb].
      eexists. split; [reflexivity|]. split.
      * cbn [fold_left choose]. rewrite fold_left_app, steps_choose. repeat split; auto. cbn. rewrite H4. exact D.
      * intro g. cbn [log]. rewrite H5. cbn [log wanted any_text choose]. rewrite wanted_app, steps_wanted, steps_choose. cbn. rewrite app_nil_r. reflexivity.
Qed.
Lemma together : forall p, ~ In CRestore p ->
  exists s, run (events p) init = Ok s /\ forall f, arrived everyone (DFile f) (log s) = wanted any_text (DFile f) None (events p).
Proof.
  intros p N. assert (G : forall p c s, both c s -> ~ In CRestore p -> exists s', run (events p) s = Ok s' /\
    forall f, arrived everyone (DFile f) (log s') = arrived everyone (DFile f) (log s) ++ wanted any_text (DFile f) c (events p)).
  { clear. induction p as [|x p IH]; intros c s H N.
    - exists s. split; [reflexivity|]. intro f. cbn. rewrite app_nil_r. reflexivity.
    - destruct (call_both x c s H) as (s1 & E1 & H1 & W1); [intros ->; apply N; left; reflexivity|].
      destruct (IH _ s1 H1) as (s2 & E2 & W2); [intro I; apply N; right; exact I|].
      exists s2. unfold events in *. cbn [flat_map]. rewrite run_app, E1. split; [exact E2|]. intro f. rewrite W2, W1, wanted_app, app_assoc. reflexivity. }
  destruct (G p None init) as (s & E & W); auto; [repeat split|]. exists s. split; [exact E|]. intro f. rewrite W. reflexivity.
Qed.

(** ** Without redirection *)
Definition plain (s : ost) : Prop := pout s = None /\ pybuf s = None.
Lemma held_of_in : forall k l, In k (map fst l) -> exists t, held_of k l = Some t.
Proof.
  induction l as [|[j t] r IH]; intro H; [contradiction|]. cbn. destruct (Nat.eqb_spec j k) as [E|N]; [exists t; reflexivity|].
  destruct H as [H|H]; [contradiction|auto].
Qed.
Lemma held_del_map : forall k l, map fst (held_del k l) = remove Nat.eq_dec k (map fst l).
Proof.
  induction l as [|[j t] r IH]; [reflexivity|]. unfold held_del in *. cbn. destruct (Nat.eqb_spec j k) as [->|N]; cbn.
  - destruct (Nat.eq_dec k k); [exact IH|contradiction].
  - destruct (Nat.eq_dec k j); [congruence|]. rewrite IH. reflexivity.
Qed.
Lemma unredirected : forall l, Forall (fun e => moves e = false) l -> possible [] l ->
  exists s, run l init = Ok s /\ arrived engine_only DCout (log s) = wanted engine_text DCout None l /\ forall f, arrived everyone (DFile f) (log s) = [].
Proof.
  intros l F P. assert (G : forall l s, plain s -> pystd s = DSys -> Forall (fun e => moves e = false) l -> possible (map fst (held s)) l ->
    exists s', run l s = Ok s' /\ arrived engine_only DCout (log s') = arrived engine_only DCout (log s) ++ wanted engine_text DCout None l /\
    forall f, arrived everyone (DFile f) (log s') = arrived everyone (DFile f) (log s)).
  { clear. induction l as [|e q IH]; intros s [A B] D F P.
    - exists s. cbn. rewrite app_nil_r. auto.
    - assert (F1 := Forall_inv F). apply Forall_inv_tail in F.
      destruct e as [f ok| |t|t|k|k t|k]; cbn [run event_run moves] in *.
      + destruct ok; [discriminate F1|]. cbn [redirect redirect_engine obind]. destruct (IH s) as (s' & E & W & W'); [split; auto|auto|exact F|exact P|].
        exists s'. auto.
      + discriminate F1.
      + unfold engine_write. rewrite A. cbn [obind]. destruct (IH (arrive Engine DCout t s)) as (s' & E & W & W'); [split; auto|auto|exact F|exact P|].
        exists s'. split; [exact E|]. split; [rewrite W; cbn; rewrite <- app_assoc; reflexivity|intro f; rewrite W'; cbn; rewrite app_nil_r; reflexivity].
      + cbn [obind]. destruct (IH (python_write t s)) as (s' & E & W & W'); [split; auto|auto|exact F|exact P|].
        exists s'. split; [exact E|]. split; [rewrite W; cbn; rewrite ?app_nil_r; reflexivity|intro f; rewrite W'; cbn; rewrite D; cbn; rewrite ?app_nil_r; reflexivity].
      + unfold step_begin. rewrite A, B. cbn [obind]. cbn [possible] in P. destruct P as [_ P].
        destruct (IH (mk None None ((k, []) :: held s) (pystd s) (refs s) (log s))) as (s' & E & W & W'); [split; auto|auto|exact F|exact P|].
        exists s'. auto.
      + unfold engine_write. rewrite A. cbn [obind]. cbn [possible] in P. destruct P as [_ P].
        destruct (IH (arrive Engine DCout t s)) as (s' & E & W & W'); [split; auto|auto|exact F|exact P|].
        exists s'. split; [exact E|]. split; [rewrite W; cbn; rewrite <- app_assoc; reflexivity|intro f; rewrite W'; cbn; rewrite app_nil_r; reflexivity].
      + cbn [possible] in P. destruct P as [Ik P]. unfold step_end. destruct (held_of_in _ _ Ik) as (t & Ht). rewrite Ht, A, B. cbn [obind].
        destruct (IH (mk None None (held_del k (held s)) (pystd s) (refs s) (log s))) as (s' & E & W & W'); [split; auto|auto|exact F|cbn [held]; rewrite held_del_map; exact P|].
        exists s'. auto. }
  destruct (G l init) as (s & E & W & W'); auto; [split; reflexivity|]. exists s. auto.
Qed.

(** ** Two steps at a time *)
Lemma held_del_other : forall a b (t u : text) l, a <> b -> held_of b (held_del a ((b, t) :: l)) = Some t.
Proof. intros. unfold held_del. cbn. destruct (Nat.eqb_spec b a); [congruence|]. cbn. rewrite Nat.eqb_refl. reflexivity. Qed.
Lemma two_steps : forall l s f a b t, run l init = Ok s -> chosen l = Some f -> a <> b ->
  run (l ++ [EBegin a; EBegin b; EEnd a; EStep b t]) init = UB /\ run (l ++ [EBegin a; EBegin b; EEnd b; EStep a t]) init = UB.
Proof.
  intros l s f a b t E C N. destruct (inv_run l None init s inv_init E) as (A & B & _). fold (chosen l) in A, B. rewrite C in A, B.
  rewrite !run_app, E. cbn [obind run event_run]. unfold step_begin. rewrite A. destruct (pout s) as [p|]; [|destruct B as [B _]; discriminate (B eq_refl)].
  cbn [obind run event_run pybuf pout held]. unfold step_end. cbn [held held_of pybuf pout obind]. rewrite !Nat.eqb_refl.
  destruct (Nat.eqb_spec b a); [congruence|]. cbn [obind]. split; reflexivity.
Qed.

(** ** The class after restore *)
Lemma write_python : forall gil t s s', engine_write gil t s = Ok s' -> pystd s' = pystd s /\ forall d, arrived python_only d (log s') = arrived python_only d (log s).
Proof.
  intros gil t s s' E. unfold engine_write in E. destruct (pout s) as [[|k]|].
  - destruct (pybuf s); [|discriminate]. destruct gil; [|discriminate]. injection E as <-. cbn. split; auto. intro d. rewrite app_nil_r. reflexivity.
  - destruct (held_of k (held s)); [|discriminate]. injection E as <-. auto.
  - injection E as <-. cbn. split; auto. intro d. rewrite app_nil_r. reflexivity.
Qed.
Lemma python_run : forall l s s', run l s = Ok s' -> forall d, arrived python_only d (log s') = arrived python_only d (log s) ++ python_wanted d (pystd s) l.
Proof.
  induction l as [|e q IH]; intros s s' E d; cbn [run] in E.
  - injection E as <-. cbn. rewrite app_nil_r. reflexivity.
  - destruct (event_run e s) as [s1| | |] eqn:E1; try discriminate. specialize (IH s1 s' E d). rewrite IH. clear IH E.
    destruct e as [f ok| |t|t|k|k t|k]; cbn [event_run] in E1.
    + destruct ok; injection E1 as <-; reflexivity.
    + injection E1 as <-. reflexivity.
    + destruct (write_python _ _ _ _ E1) as [A B]. rewrite A, B. reflexivity.
    + injection E1 as <-. cbn. rewrite <- app_assoc. reflexivity.
    + unfold step_begin in E1. destruct (pybuf s); [destruct (pout s); [|discriminate]|]; injection E1 as <-; reflexivity.
    + destruct (write_python _ _ _ _ E1) as [A B]. rewrite A, B. reflexivity.
    + unfold step_end in E1. destruct (held_of k (held s)); [|discriminate]. destruct (pybuf s).
      * destruct (pout s); [|discriminate]. destruct (write_python _ _ _ _ E1) as [A B]. rewrite A, B. reflexivity.
      * injection E1 as <-. reflexivity.
Qed.
Lemma python_side : forall l s, run l init = Ok s -> forall d, arrived python_only d (log s) = python_wanted d DSys l.
Proof. intros l s E d. exact (python_run l init s E d). Qed.
