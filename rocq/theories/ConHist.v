(** Call histories on the constraint table: C03, C05. *)
From Coq Require Import List ZArith Ascii Bool Lia Reals Lra.
From Verif Require Import Base ParamModel ParamProof ParserModel ParserLex ParserSafe ParserSpec
  ParserGram ParserProof ParserUsed Util MatrixModel MatrixProof MathModel MathSpec MathProof ConModel ConSpec ConProof.
Import ListNotations.

Section Hist.
Context {T : Type} (N : numops T) (builtins : list (builtin T)).

(** * one entry per variable *)
Definition hist_inv (s : cstate T) (h : list (cop T)) : Prop :=
  mwf (cdvdp s) /\ NoDup (map cvar (cons_ s)) /\
  forall a, match latest a h with
            | None => forall e, In e (cons_ s) -> cvar e <> a
            | Some x => exists e, In e (cons_ s) /\ entry_of e a x
            end.

Lemma find_var_none a l : find_var a l = None -> forall e, In e l -> cvar e <> a.
Proof.
  induction l as [|x l IH]; simpl. tauto. destruct (Nat.eqb_spec (cvar x) a); [discriminate|].
  destruct (find_var a l); [discriminate|]. intros _ e [->|I]; auto.
Qed.

Lemma find_var_some a l i : find_var a l = Some i -> exists e, nth_error l i = Some e /\ cvar e = a.
Proof.
  revert i. induction l as [|x l IH]; simpl; intros i H. discriminate.
  destruct (Nat.eqb_spec (cvar x) a). inversion H; subst; simpl; eauto.
  destruct (find_var a l) as [j|]; [|discriminate]. inversion H; subst. simpl. auto.
Qed.

Lemma NoDup_snoc_gen {A} (l : list A) x : NoDup l -> ~ In x l -> NoDup (l ++ [x]).
Proof.
  induction 1 as [|y l N1 N2 IH]; simpl; intros H. constructor; auto. constructor.
  constructor. rewrite in_app_iff; simpl. intuition. apply IH. tauto.
Qed.

Lemma map_upd {A B} (f : A -> B) l : forall i x y, nth_error l i = Some y -> f x = f y -> map f (upd i x l) = map f l.
Proof. induction l; intros [|i] x y; simpl; intros H E; try discriminate. congruence. f_equal. eauto. Qed.

Lemma in_upd {A} (l : list A) : forall i x y, In y (upd i x l) -> y = x \/ exists j, j <> i /\ nth_error l j = Some y.
Proof.
  intros i x y H. apply In_nth_error in H as (j & E). destruct (Nat.eq_dec j i).
  - subst. destruct (lt_dec i (length l)). rewrite upd_same in E by auto. left; congruence.
    rewrite (proj2 (nth_error_None _ _)) in E. discriminate. rewrite upd_length. lia.
  - rewrite upd_other in E by auto. eauto.
Qed.

Lemma NoDup_map_nth {A B} (f : A -> B) l i j x y : NoDup (map f l) -> nth_error l i = Some x -> nth_error l j = Some y ->
  f x = f y -> i = j.
Proof.
  intros ND E1 E2 E. rewrite NoDup_nth_error in ND. apply ND.
  rewrite map_length. apply nth_error_Some. congruence.
  rewrite !nth_error_map, E1, E2. simpl. congruence.
Qed.

Lemma constrain_inv (s : cstate T) h a f n ty x o :
  hist_inv s h -> (forall e, In e (cons_ s) -> cvar e = a -> cref e = true) ->
  entry_of (mkCon a f n ty true) a x ->
  latest a (o :: h) = Some x -> (forall b, b <> a -> latest b (o :: h) = latest b h) ->
  hist_inv (constrain s a f n ty) (o :: h).
Proof.
  intros (M & ND & H) CL EN L1 L2. unfold constrain, vfind.
  destruct (find_var a (cons_ s)) as [i|] eqn:F.
  - destruct (find_var_some _ _ _ F) as (e & E & Ca). rewrite E, (CL e (nth_error_In _ _ E) Ca).
    split; auto. cbn [cons_]. split.
    { erewrite map_upd; eauto. }
    intros b. destruct (Nat.eq_dec b a).
    + subst b. rewrite L1. eexists; split; [|exact EN]. eapply nth_error_In. apply upd_same. apply nth_error_Some. congruence.
    + rewrite L2 by auto. specialize (H b). destruct (latest b h) as [y|].
      * destruct H as (e' & I & R). exists e'. split; auto. apply In_nth_error in I as (j & Ej).
        eapply nth_error_In. erewrite upd_other; [exact Ej|]. intros Q. subst j.
        destruct R as [R _]. congruence.
      * intros e' I. apply in_upd in I as [->|(j & _ & Ej)]; simpl; auto. apply H. eapply nth_error_In; eauto.
  - split; auto. cbn [cons_]. split.
    { rewrite map_app. simpl. apply NoDup_snoc_gen; auto. intros I. apply in_map_iff in I as (e & Q & I).
      eapply find_var_none; eauto. }
    intros b. destruct (Nat.eq_dec b a).
    + subst b. rewrite L1. eexists; split; [|exact EN]. apply in_app_iff; right; left; auto.
    + rewrite L2 by auto. specialize (H b). destruct (latest b h) as [y|].
      * destruct H as (e' & I & R). exists e'. split; auto. apply in_app_iff; auto.
      * intros e' I. apply in_app_iff in I as [I|[<-|[]]]; simpl; auto.
Qed.

Lemma strip_in (l l' : list centry) e : map strip l' = map strip l -> In e l -> exists e', In e' l' /\ strip e' = strip e.
Proof. intros H I. apply (in_map strip) in I. rewrite <- H in I. apply in_map_iff in I as (e' & A & B). eauto. Qed.

Lemma strip_vars (l l' : list centry) : map strip l' = map strip l -> map cvar l' = map cvar l.
Proof.
  intros H. assert (G : forall l, map cvar l = map (fun x => fst (fst (fst x))) (map strip l)).
  { intros. rewrite map_map. auto. }
  rewrite !G. congruence.
Qed.

Lemma hist_step (s : cstate T) h o : hist_inv s h -> clean s o -> hist_inv (fst (cstep N builtins s o)) (o :: h).
Proof.
  intros I CL. destruct o as [p|a f|a n ty|a v|].
  - exact I.
  - simpl cstep. unfold constrain_str. apply (constrain_inv s h a f _ _ (AStr f)); auto.
    split; simpl; auto.
    simpl. rewrite Nat.eqb_refl. auto.
    intros b Hb. simpl. destruct (Nat.eqb_spec a b); congruence.
  - simpl cstep. unfold constrain_int.
    destruct (Z.eqb_spec ty 0) as [->|N0]; simpl.
    { apply (constrain_inv s h a [] n IDENT (AInt n 0)); auto. split; simpl; auto.
      simpl. rewrite Nat.eqb_refl; auto. intros b Hb. simpl. destruct (Nat.eqb_spec a b); simpl; congruence. }
    destruct (Z.eqb_spec ty 1) as [->|N1]; simpl.
    { apply (constrain_inv s h a [] n IDENT (AInt n 1)); auto. split; simpl; auto.
      simpl. rewrite Nat.eqb_refl; auto. intros b Hb. simpl. destruct (Nat.eqb_spec a b); simpl; congruence. }
    destruct (Z.eqb_spec ty 2) as [->|N2]; simpl.
    { apply (constrain_inv s h a [] n FCOMP (AInt n 2)); auto. split; simpl; auto.
      simpl. rewrite Nat.eqb_refl; auto. intros b Hb. simpl. destruct (Nat.eqb_spec a b); simpl; congruence. }
    destruct (Z.eqb_spec ty 3) as [->|N3]; simpl.
    { apply (constrain_inv s h a [] n FSQR (AInt n 3)); auto. split; simpl; auto.
      simpl. rewrite Nat.eqb_refl; auto. intros b Hb. simpl. destruct (Nat.eqb_spec a b); simpl; congruence. }
    destruct I as (A & B & C). split; auto. split; auto. intros b. simpl.
    destruct (Z.leb_spec 0 ty), (Z.leb_spec ty 3); simpl; rewrite ?andb_false_r; try apply C. lia.
  - exact I.
  - simpl. destruct (fill_variables N builtins s) as [s' r] eqn:F. destruct I as (A & B & C).
    destruct (fill_variables_frame N builtins s s' r F A) as (F1 & F2 & F3 & F4). simpl. split; auto. split.
    { rewrite (strip_vars _ _ F2). auto. }
    intros b. specialize (C b). change (latest b (CCalc :: h)) with (latest b h). destruct (latest b h) as [x|].
    + destruct C as (e & I & R). destruct (strip_in _ _ e F2 I) as (e' & I' & Q). exists e'. split; auto.
      unfold strip in Q. inversion Q. unfold entry_of in R |- *. destruct R as [R1 R2]. split; [congruence|]. destruct x; intuition congruence.
    + intros e I. destruct (strip_in _ _ e (eq_sym F2) I) as (e' & I' & Q). unfold strip in Q. inversion Q.
      pose proof (C e' I'). congruence.
Qed.

Lemma crun_snoc (s : cstate T) h o : crun N builtins s (h ++ [o]) = fst (cstep N builtins (crun N builtins s h) o).
Proof. unfold crun. rewrite fold_left_app. reflexivity. Qed.

Definition all_clean (s : cstate T) (h : list (cop T)) : Prop :=
  forall h1 o h2, h = h1 ++ o :: h2 -> clean (crun N builtins s h1) o.

Lemma hist_run mem (h : list (cop T)) : all_clean (cinit mem) h -> hist_inv (crun N builtins (cinit mem) h) (rev h).
Proof.
  induction h as [|o h IH] using rev_ind; intros CL.
  - split; [|split]. repeat split. constructor. simpl. tauto.
  - rewrite crun_snoc, rev_app_distr. simpl. apply hist_step.
    + apply IH. intros h1 o' h2 E. apply (CL h1 o' (h2 ++ [o])). rewrite E, <- app_assoc. auto.
    + apply (CL h o []). auto.
Qed.

(** a successful calculation assigns every entry *)
Definition entry_val (t : ptab T) (e : centry) (v : T) : Prop :=
  match cform e with
  | _ :: _ => exists d used, parse N builtins t (cform e) = Ok (v, d, used)
  | [] => exists p, getpar t (cidef e) = Ok p /\
      match ctype e with
      | IDENT => v = p
      | FCOMP => v = n_sub N (n_one N) p
      | FSQR => v = n_mul N p p
      | USER => False
      end
  end.

Lemma fill_one_val (s : cstate T) i s' : fill_one N builtins s i = (s', Ok tt) ->
  exists e, nth_error (cons_ s) i = Some e /\
   (forall a, a <> cvar e -> cmem s' a = cmem s a) /\
   (cform e = [] -> ctype e <> USER -> entry_val (ctab s) e (cmem s' (cvar e))) /\
   (cform e <> [] -> entry_val (ctab s) e (cmem s' (cvar e))).
Proof.
  unfold fill_one. destruct (nth_error (cons_ s) i) as [e|]; [|discriminate]. intros H. exists e. split; auto.
  unfold entry_val. destruct (cform e) as [|ch f].
  - destruct (parfind (ctab s) (cidef e)) as [k|] eqn:P; [|discriminate].
    destruct (nth_error (pfree (ctab s)) k) as [fr|]; [|discriminate].
    destruct (nth_error (pval (ctab s)) k) as [p|] eqn:Ev; [|discriminate].
    assert (Gp : getpar (ctab s) (cidef e) = Ok p) by (unfold getpar; rewrite P, Ev; auto).
    assert (G : forall v dv, (match mx_set (cdvdp s) i k dv with
       | Ok m => (mkCst (ctab s) (set_ref i fr (cons_ s)) m (mem_set (cmem s) (cvar e) v), Ok tt)
       | _ => (mkCst (ctab s) (set_ref i false (cons_ s)) (cdvdp s) (cmem s), UB) end) = (s', Ok tt) ->
       (forall a, a <> cvar e -> cmem s' a = cmem s a) /\ cmem s' (cvar e) = v).
    { intros v dv Q. destruct (mx_set (cdvdp s) i k dv); inversion Q; subst. simpl. unfold mem_set. split.
      intros b Hb. destruct (Nat.eqb_spec b (cvar e)); congruence. rewrite Nat.eqb_refl. auto. }
    destruct (ctype e).
    + inversion H; subst; simpl. split; auto. split; congruence.
    + apply G in H as [G1 G2]. split; auto. split; [|congruence]. eauto.
    + apply G in H as [G1 G2]. split; auto. split; [|congruence]. eauto.
    + apply G in H as [G1 G2]. split; auto. split; [|congruence]. eauto.
  - destruct (parse N builtins (ctab s) (ch :: f)) as [[[v d] used]|x| |]; try discriminate.
    destruct (store_derivs (ctab s) i used d 0 false (cdvdp s)) as [[r' m]|x| |]; inversion H; subst; simpl.
    unfold mem_set. split. { intros a Ha. destruct (Nat.eqb_spec a (cvar e)); congruence. }
    rewrite Nat.eqb_refl. split; [discriminate|eauto].
Qed.

Lemma fill_loop_val : forall n i (s s' : cstate T), fill_loop N builtins s n i = (s', Ok tt) -> mwf (cdvdp s) ->
  NoDup (map cvar (cons_ s)) ->
  (forall a, (forall j e, i <= j < i + n -> nth_error (cons_ s) j = Some e -> cvar e <> a) -> cmem s' a = cmem s a) /\
  (forall j e, i <= j < i + n -> nth_error (cons_ s) j = Some e -> (cform e = [] -> ctype e <> USER) ->
     entry_val (ctab s) e (cmem s' (cvar e))).
Proof.
  induction n as [|n IH]; intros i s s' H M ND; simpl in H.
  - inversion H; subst. split; auto. intros; lia.
  - destruct (fill_one N builtins s i) as [s1 r1] eqn:E. destruct r1 as [[]|x| |]; try discriminate.
    destruct (fill_one_val _ _ _ E) as (ei & Ei & V1 & V2 & V3).
    destruct (fill_one_frame N builtins s i s1 (Ok tt) E M) as (A & B & C & _).
    assert (ND1 : NoDup (map cvar (cons_ s1))) by (rewrite (strip_vars _ _ B); auto).
    destruct (IH (S i) s1 s' H C ND1) as (P & Q).
    assert (ST : forall j e, nth_error (cons_ s) j = Some e -> exists e1, nth_error (cons_ s1) j = Some e1 /\ strip e1 = strip e).
    { intros j e Ej. assert (nth_error (map strip (cons_ s1)) j = Some (strip e)) as Ej1 by (rewrite B, nth_error_map, Ej; auto).
      rewrite nth_error_map in Ej1. destruct (nth_error (cons_ s1) j) as [e1|]; [|discriminate]. simpl in Ej1. exists e1. split; auto. congruence. }
    assert (ST' : forall j e, nth_error (cons_ s1) j = Some e -> exists e1, nth_error (cons_ s) j = Some e1 /\ strip e = strip e1).
    { intros j e Ej. assert (nth_error (map strip (cons_ s)) j = Some (strip e)) as Ej1 by (rewrite <- B, nth_error_map, Ej; auto).
      rewrite nth_error_map in Ej1. destruct (nth_error (cons_ s) j) as [e1|]; [|discriminate]. simpl in Ej1. exists e1. split; auto. congruence. }
    split.
    + intros a Ha. rewrite P. apply V1. intros Q1. apply (Ha i ei); auto; lia.
      intros j e L Ej. destruct (ST' j e Ej) as (e1 & Ej1 & Es). unfold strip in Es. inversion Es. rewrite H1.
      apply (Ha j e1); auto. lia.
    + intros j e L Ej Hu. destruct (Nat.eq_dec j i).
      * subst j. rewrite Ei in Ej. inversion Ej; subst e.
        assert (cmem s' (cvar ei) = cmem s1 (cvar ei)) as ->.
        { apply P. intros j e L' Ej' Q1. destruct (ST' j e Ej') as (e1 & Ej1 & Es). unfold strip in Es. inversion Es.
          assert (j = i). { apply (NoDup_map_nth cvar (cons_ s) j i e1 ei); auto. congruence. } lia. }
        destruct (list_eq_dec ascii_dec (cform ei) []) as [Q1|Q1]; [apply V2; auto|apply V3; auto].
      * destruct (ST j e Ej) as (e1 & Ej1 & Es). unfold strip in Es. inversion Es.
        assert (EV : entry_val (ctab s1) e1 (cmem s' (cvar e1))).
        { apply (Q j e1); auto. lia. intros Q0. rewrite H4. apply Hu. congruence. }
        unfold entry_val in EV |- *. rewrite H1, H2, H3, H4, A in EV. rewrite ?H1. exact EV.
Qed.

Lemma fill_variables_val (s s' : cstate T) e : fill_variables N builtins s = (s', Ok tt) -> mwf (cdvdp s) ->
  NoDup (map cvar (cons_ s)) -> In e (cons_ s) -> (cform e = [] -> ctype e <> USER) ->
  entry_val (ctab s) e (cmem s' (cvar e)).
Proof.
  unfold fill_variables. intros H M ND I Hu.
  destruct (mx_resize_spec (n_zero N) (cdvdp s) (length (cons_ s)) (length (pval (ctab s))) M)
    as (m & R1 & R2 & _). rewrite R1 in H.
  destruct (fill_loop_val _ _ _ _ H R2 ND) as (_ & Q). simpl in Q.
  apply In_nth_error in I as (j & Ej). apply (Q j e); auto. split. lia. apply nth_error_Some. congruence.
Qed.

(** what the variable must equal under its latest constraint *)
Definition arg_val (t : ptab T) (x : carg) (v : T) : Prop :=
  match x with
  | AStr f => exists d used, parse N builtins t f = Ok (v, d, used)
  | AInt n ty => exists p, getpar t n = Ok p /\
      v = if Z.eqb ty 2 then n_sub N (n_one N) p else if Z.eqb ty 3 then n_mul N p p else p
  end.

Lemma last_wins mem (h : list (cop T)) s' : all_clean (cinit mem) h ->
  fill_variables N builtins (crun N builtins (cinit mem) h) = (s', Ok tt) ->
  let s := crun N builtins (cinit mem) h in
  NoDup (map cvar (cons_ s)) /\
  (forall a x, latest a (rev h) = Some x -> x <> AStr [] -> arg_val (ctab s) x (cmem s' a)) /\
  (forall a, latest a (rev h) = None -> cmem s' a = cmem s a).
Proof.
  intros CL F s. destruct (hist_run mem h CL) as (A & B & C). fold s in A, B, C, F. split; auto. split.
  - intros a x L NE. specialize (C a). rewrite L in C. destruct C as (e & I & Ca & R).
    assert (EV : entry_val (ctab s) e (cmem s' (cvar e))).
    { eapply fill_variables_val; eauto. intros Q. destruct x as [f|n ty].
      - destruct R as (R1 & _). congruence.
      - destruct R as (_ & _ & ->). destruct (Z.eqb ty 2); [|destruct (Z.eqb ty 3)]; discriminate. }
    rewrite Ca in EV. unfold entry_val in EV. unfold arg_val. destruct x as [f|n ty].
    + destruct R as (R1 & _). rewrite R1 in EV. destruct f; [congruence|]. auto.
    + destruct R as (R1 & R2 & R3). rewrite R1, R2, R3 in EV. destruct EV as (p & E1 & E2). exists p. split; auto.
      destruct (Z.eqb ty 2); [|destruct (Z.eqb ty 3)]; auto.
  - intros a L. specialize (C a). rewrite L in C.
    destruct (fill_variables_frame N builtins s s' _ F A) as (_ & _ & _ & Fr). apply Fr. auto.
Qed.

End Hist.
