From Coq Require Import List ZArith Lia Bool.
From Verif Require Import Base ParamModel ParamSpec.
Import ListNotations.
Local Open Scope Z_scope.

Lemma upd_length {A} n (x : A) l : length (upd n x l) = length l.
Proof. revert n; induction l; destruct n; simpl; auto. Qed.

Lemma upd_same {A} n (x : A) l : (n < length l)%nat -> nth_error (upd n x l) n = Some x.
Proof. revert n; induction l; destruct n; simpl; intros; try lia; auto. apply IHl; lia. Qed.

Lemma upd_other {A} n m (x : A) l : n <> m -> nth_error (upd n x l) m = nth_error l m.
Proof.
  revert n m; induction l; destruct n, m; simpl; intros; try congruence; auto.
Qed.

Section P.
Context {T : Type}.

(** the three vectors stay parallel and ids distinct *)
Definition wf (t : ptab T) : Prop :=
  length (pval t) = length (pid t) /\ length (pfree t) = length (pid t) /\ NoDup (pid t).

Lemma find_pos_lt n l i : find_pos n l = Some i -> (i < length l)%nat.
Proof.
  revert i; induction l; simpl; intros; try discriminate.
  destruct (Z.eqb a n). inversion H; lia.
  destruct (find_pos n l); inversion H. specialize (IHl _ eq_refl); lia.
Qed.

Lemma find_pos_nth n l i : find_pos n l = Some i -> nth_error l i = Some n.
Proof.
  revert i; induction l; simpl; intros; try discriminate.
  destruct (Z.eqb_spec a n). inversion H; subst; auto.
  destruct (find_pos n l); inversion H. simpl. auto.
Qed.

Lemma find_pos_none n l : find_pos n l = None <-> ~ In n l.
Proof.
  induction l; simpl. tauto.
  destruct (Z.eqb_spec a n). split; [discriminate|intuition].
  destruct (find_pos n l). split; [discriminate|]. intros; exfalso. apply H. right.
  destruct (in_dec Z.eq_dec n l); auto. apply IHl in n2. discriminate.
  intuition.
Qed.

Lemma find_pos_app n l m : find_pos n (l ++ [m]) =
  match find_pos n l with Some i => Some i | None => if Z.eqb m n then Some (length l) else None end.
Proof.
  induction l; simpl. destruct (Z.eqb m n); auto.
  destruct (Z.eqb a n); auto. rewrite IHl. destruct (find_pos n l); auto. destruct (Z.eqb m n); auto.
Qed.

Lemma find_pos_inj k k' l i : find_pos k l = Some i -> find_pos k' l = Some i -> k = k'.
Proof. intros H1 H2. apply find_pos_nth in H1, H2. congruence. Qed.

(** abstraction *)
Definition aval (t : ptab T) (k : Z) : option T :=
  match find_pos k (pid t) with Some i => nth_error (pval t) i | None => None end.
Definition aflag (t : ptab T) (k : Z) : option bool :=
  match find_pos k (pid t) with Some i => nth_error (pfree t) i | None => None end.

Lemma wf_init : wf (@ptab_init T).
Proof. repeat split; simpl; auto. constructor. Qed.

Lemma NoDup_snoc (l : list Z) x : NoDup l -> ~ In x l -> NoDup (l ++ [x]).
Proof.
  intros. rewrite <- (app_nil_r (l ++ [x])), <- app_assoc. simpl.
  apply NoDup_Add with (a := x) (l := l); [|auto].
  rewrite <- (app_nil_r l) at 1. apply Add_app.
Qed.

Lemma wf_step (t : ptab T) (o : pop T) : wf t -> wf (fst (pstep t o)).
Proof.
  intros (H1 & H2 & H3). destruct o; simpl.
  - unfold setpar, parfind. destruct (find_pos (u32 n) (pid t)) eqn:E; unfold wf; simpl.
    + rewrite upd_length; auto.
    + rewrite !app_length; simpl. repeat split; try lia. apply NoDup_snoc; auto.
      apply find_pos_none; auto.
  - unfold wf; auto.
  - unfold fixpar, setflag. destruct (Z.eqb n (-1)); simpl.
    + unfold wf; simpl. rewrite map_length. auto.
    + destruct (parfind t n); simpl; [|unfold wf; auto].
      destruct (Nat.ltb _ _); unfold wf; simpl; rewrite ?upd_length; auto.
  - unfold freepar, setflag. destruct (Z.eqb n (-1)); simpl.
    + unfold wf; simpl. rewrite map_length. auto.
    + destruct (parfind t n); simpl; [|unfold wf; auto].
      destruct (Nat.ltb _ _); unfold wf; simpl; rewrite ?upd_length; auto.
Qed.

Lemma prun_snoc (t : ptab T) (h : list (pop T)) o : prun t (h ++ [o]) = fst (pstep (prun t h) o).
Proof. unfold prun. rewrite fold_left_app. reflexivity. Qed.

Lemma wf_run (h : list (pop T)) : wf (prun (@ptab_init T) h).
Proof.
  induction h using rev_ind. apply wf_init. rewrite prun_snoc. apply wf_step; auto.
Qed.

Lemma nth_error_map_const {A B} (b : B) (l : list A) i :
  nth_error (map (fun _ => b) l) i = match nth_error l i with Some _ => Some b | None => None end.
Proof. revert i; induction l; destruct i; simpl; auto. Qed.

Lemma aval_step (t : ptab T) (o : pop T) k : wf t -> aval (fst (pstep t o)) k =
  match o with PSet n v => if Z.eqb (u32 n) k then Some v else aval t k | _ => aval t k end.
Proof.
  intros (H1 & H2 & H3). destruct o; simpl; auto.
  - unfold setpar, parfind, aval. destruct (find_pos (u32 n) (pid t)) eqn:E; simpl.
    + destruct (Z.eqb_spec (u32 n) k).
      * subst. rewrite E. rewrite upd_same; auto. rewrite H1. eapply find_pos_lt; eauto.
      * destruct (find_pos k (pid t)) eqn:E2; auto.
        rewrite upd_other; auto. intro; subst. apply n1. eapply find_pos_inj; eauto.
    + rewrite find_pos_app. destruct (Z.eqb_spec (u32 n) k).
      * subst. rewrite E. rewrite nth_error_app2 by lia.
        rewrite H1, Nat.sub_diag. auto.
      * destruct (find_pos k (pid t)) eqn:E2; auto.
        rewrite nth_error_app1; auto. rewrite H1. eapply find_pos_lt; eauto.
  - unfold fixpar, setflag. destruct (Z.eqb n (-1)); simpl; auto.
    destruct (parfind t n); simpl; auto. destruct (Nat.ltb _ _); auto.
  - unfold freepar, setflag. destruct (Z.eqb n (-1)); simpl; auto.
    destruct (parfind t n); simpl; auto. destruct (Nat.ltb _ _); auto.
Qed.

Lemma aflag_setflag b (t : ptab T) n k : wf t ->
  aflag (fst (setflag b t n)) k =
  match aflag t k with Some b' => Some (if names n k then b else b') | None => None end.
Proof.
  intros (H1 & H2 & H3). unfold setflag, names, aflag. destruct (Z.eqb_spec n (-1)); simpl.
  - destruct (find_pos k (pid t)); auto. rewrite nth_error_map_const.
    destruct (nth_error _ _); auto.
  - unfold parfind. destruct (find_pos (u32 n) (pid t)) eqn:E; simpl.
    + pose proof (find_pos_lt _ _ _ E). destruct (Nat.ltb_spec n1 (length (pfree t))); simpl; try lia.
      destruct (Z.eqb_spec (u32 n) k).
      * subst. rewrite E. rewrite upd_same by auto.
        destruct (nth_error (pfree t) n1) eqn:E3; auto.
        apply nth_error_None in E3. lia.
      * destruct (find_pos k (pid t)) eqn:E2; auto.
        rewrite upd_other; auto. destruct (nth_error _ _); auto.
        intro; subst. apply n2. eapply find_pos_inj; eauto.
    + destruct (find_pos k (pid t)) eqn:E2; auto. destruct (nth_error _ _) eqn:E3; auto.
      destruct (Z.eqb_spec (u32 n) k); auto. congruence.
Qed.

Lemma aflag_step (t : ptab T) (o : pop T) k : wf t -> aflag (fst (pstep t o)) k =
  match o with
  | PSet n v => match aflag t k with
                | Some b => Some b
                | None => if Z.eqb (u32 n) k then Some true else None end
  | PGet _ => aflag t k
  | PFix n => match aflag t k with Some b => Some (if names n k then false else b) | None => None end
  | PFree n => match aflag t k with Some b => Some (if names n k then true else b) | None => None end
  end.
Proof.
  intros W. destruct o; simpl; auto.
  - destruct W as (H1 & H2 & H3).
    unfold setpar, parfind, aflag. destruct (find_pos (u32 n) (pid t)) eqn:E; simpl.
    + destruct (find_pos k (pid t)) eqn:E2; auto.
      * destruct (nth_error _ _) eqn:E3; auto. apply nth_error_None in E3.
        apply find_pos_lt in E2. lia.
      * destruct (Z.eqb_spec (u32 n) k); auto. congruence.
    + rewrite find_pos_app. destruct (find_pos k (pid t)) eqn:E2.
      * pose proof (find_pos_lt _ _ _ E2). rewrite nth_error_app1 by lia.
        destruct (nth_error _ _) eqn:E3; auto. apply nth_error_None in E3. lia.
      * destruct (Z.eqb (u32 n) k); auto. rewrite nth_error_app2 by lia.
        rewrite H2, Nat.sub_diag. auto.
  - pose proof (aflag_setflag false t n k W). unfold fixpar. destruct (setflag false t n); auto.
  - pose proof (aflag_setflag true t n k W). unfold freepar. destruct (setflag true t n); auto.
Qed.

Lemma aval_run (h : list (pop T)) k : aval (prun (@ptab_init T) h) k = last_set k (rev h).
Proof.
  induction h using rev_ind. reflexivity.
  rewrite prun_snoc, aval_step by apply wf_run. rewrite rev_unit. simpl.
  destruct x; auto. rewrite IHh; auto.
Qed.

Lemma aflag_run (h : list (pop T)) k : aflag (prun (@ptab_init T) h) k = flag_of k (rev h).
Proof.
  induction h using rev_ind. reflexivity.
  rewrite prun_snoc, aflag_step by apply wf_run. rewrite rev_unit. simpl.
  rewrite IHh. destruct x; auto.
Qed.

Lemma getpar_run (h : list (pop T)) n : getpar (prun (@ptab_init T) h) n =
  match last_set (u32 n) (rev h) with Some v => Ok v | None => Err ErrUnassigned end.
Proof.
  pose proof (aval_run h (u32 n)). pose proof (wf_run h) as (W1 & W2 & W3).
  unfold getpar, parfind, aval in *.
  destruct (find_pos _ _) eqn:E.
  - rewrite <- H. destruct (nth_error _ _) eqn:E2; auto.
    apply nth_error_None in E2. apply find_pos_lt in E. lia.
  - rewrite <- H. auto.
Qed.

Lemma flag_none_iff (h : list (pop T)) k : flag_of k h = None <-> last_set k h = None.
Proof.
  induction h as [|o h IH]; simpl. tauto.
  destruct o; auto; destruct (flag_of k h) eqn:E; destruct (last_set k h) eqn:E2;
    try (destruct (Z.eqb (u32 n) k)); split; intros; try discriminate; auto;
    try (destruct IH as [I1 I2]; solve [specialize (I1 eq_refl); discriminate|specialize (I2 eq_refl); discriminate]).
Qed.

Lemma setflag_outcome b (t : ptab T) n : wf t ->
  snd (setflag b t n) =
    (if (n =? -1) then Ok tt else
     match aflag t (u32 n) with Some _ => Ok tt | None => Err ErrUnassigned end)
  /\ (snd (setflag b t n) <> Ok tt -> fst (setflag b t n) = t).
Proof.
  intros (H1 & H2 & H3). unfold setflag, aflag, parfind. destruct (Z.eqb n (-1)); simpl. intuition.
  destruct (find_pos _ _) eqn:E; simpl; auto.
  apply find_pos_lt in E. destruct (Nat.ltb_spec n0 (length (pfree t))); simpl; try lia.
  split. 2: congruence. destruct (nth_error _ _) eqn:E2; auto.
  apply nth_error_None in E2. lia.
Qed.

Lemma fix_free_outcome :
  forall (h : list (pop T)) (n : Z) (o : pop T),
    o = PFix n \/ o = PFree n ->
    let r := pstep (prun ptab_init h) o in
    snd r = (if n =? -1 then PNone else
             match last_set (u32 n) (rev h) with
             | Some _ => PNone | None => PErr ErrUnassigned end)
    /\ (snd r <> PNone -> fst r = prun ptab_init h).
Proof.
  intros h n o Ho r.
  assert (HH : forall b, 
    let q := setflag b (prun (@ptab_init T) h) n in
    out_of_unit (T:=T) (snd q) = (if n =? -1 then PNone else
             match last_set (u32 n) (rev h) with
             | Some _ => PNone | None => PErr ErrUnassigned end)
    /\ (out_of_unit (T:=T) (snd q) <> PNone -> fst q = prun ptab_init h)).
  { intros b q. destruct (setflag_outcome b _ n (wf_run h)) as [A B].
    subst q. split.
    - rewrite A. destruct (n =? -1); auto. rewrite aflag_run.
      destruct (flag_of (u32 n) (rev h)) eqn:E.
      + destruct (last_set (u32 n) (rev h)) eqn:E2; auto.
        apply flag_none_iff in E2. congruence.
      + apply flag_none_iff in E. rewrite E. auto.
    - intros H. apply B. intro K. rewrite K in H. apply H. reflexivity. }
  destruct Ho; subst o r; simpl; unfold fixpar, freepar.
  - specialize (HH false). destruct (setflag false _ n). exact HH.
  - specialize (HH true). destruct (setflag true _ n). exact HH.
Qed.

Lemma getpar_last_set :
  forall (h : list (pop T)) (n : Z),
    pstep (prun ptab_init h) (PGet n) =
      (prun ptab_init h,
       match last_set (u32 n) (rev h) with
       | Some v => PVal v
       | None => PErr ErrUnassigned
       end).
Proof.
  intros h n. simpl. rewrite getpar_run. destruct (last_set (u32 n) (rev h)); reflexivity.
Qed.
End P.

Lemma fix_single_id_refuted :
  exists (h : list (pop Z)) (k : Z),
    flag_of k h <> None /\
    forall n, -2147483648 <= n < 2147483648 ->
      names n k = true -> forall k', names n k' = true.
Proof.
  exists [PSet (-1) 5], 4294967295. split. discriminate.
  unfold names, u32. intros n Hn H k'.
  destruct (Z.eqb_spec n (-1)); auto. exfalso. simpl in H. apply Z.eqb_eq in H.
  pose proof (Z.div_mod n 4294967296 ltac:(lia)). 
  assert (n / 4294967296 = 0 \/ n / 4294967296 = -1) by lia. lia.
Qed.
