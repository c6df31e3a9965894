(** Proofs about the control of the refinement. *)
From Coq Require Import List Arith Bool Lia.
From Verif Require Import Base LsModel LsSpec.
Import ListNotations.

Section C.
  Context {St : Type}.
  Variable setup : St -> St * outcome unit.
  Variable iterate : St -> St * outcome bool.
  Variable finish : St -> St * outcome unit.
  Notation step := (refine_step setup iterate finish).
  Notation run := (refine setup iterate finish).

  Notation after := (after iterate).
  Notation flag := (flag iterate).
  Notation ends := (ends iterate).

  Fixpoint cnt (s : St) (k : nat) : nat :=
    match k with O => 0 | S n => if (negb (n =? 0) && flag s (S n))%bool then S (cnt s n) else 0 end.

  Lemma cnt_0_1 s : cnt s 1 = 0. Proof. reflexivity. Qed.

  Lemma cnt_step s n : cnt s (S n) = if (negb (n =? 0) && flag s (S n))%bool then S (cnt s n) else 0.
  Proof. reflexivity. Qed.

  Lemma cnt_lt s n : cnt s n < S n /\ (n <> 0 -> cnt s n < n).
  Proof.
    induction n as [|n IH]; [simpl; lia|]. rewrite cnt_step.
    destruct (Nat.eqb_spec n 0) as [Z|Z]; cbn [negb andb]; [lia|]. destruct IH as [A B]. specialize (B Z).
    destruct (flag s (S n)); lia.
  Qed.

  Lemma cnt_3 s n : 3 <= cnt s n <-> (4 <= n /\ flag s n = true /\ flag s (n - 1) = true /\ flag s (n - 2) = true).
  Proof.
    split.
    - intros H. pose proof (cnt_lt s n). destruct n as [|[|[|[|n]]]]; try (simpl in H; lia);
        try (destruct (cnt_lt s 1); destruct (cnt_lt s 2); destruct (cnt_lt s 3); lia).
      split; [lia|]. rewrite cnt_step in H. simpl (S (S (S n)) =? 0) in H. simpl negb in H.
      destruct (flag s (S (S (S (S n))))) eqn:E1; [|cbn in H; lia]. cbn [andb] in H. rewrite cnt_step in H.
      simpl (S (S n) =? 0) in H. simpl negb in H.
      destruct (flag s (S (S (S n)))) eqn:E2; [|cbn in H; lia]. cbn [andb] in H. rewrite cnt_step in H.
      simpl (S n =? 0) in H. simpl negb in H.
      destruct (flag s (S (S n))) eqn:E3; [|cbn in H; lia].
      replace (S (S (S (S n))) - 1) with (S (S (S n))) by lia. replace (S (S (S (S n))) - 2) with (S (S n)) by lia. auto.
    - intros (L & F1 & F2 & F3). destruct n as [|[|[|[|n]]]]; try lia.
      replace (S (S (S (S n))) - 1) with (S (S (S n))) in F2 by lia. replace (S (S (S (S n))) - 2) with (S (S n)) in F3 by lia.
      rewrite !cnt_step, F1, F2, F3. cbn [Nat.eqb negb andb]. lia.
  Qed.

  Lemma need_more_cnt s n : n <= 100 -> (need_more (mkC n (cnt s n)) = false <-> ends s n).
  Proof.
    intros L. unfold need_more, ends. simpl c_iter. simpl c_stag.
    rewrite orb_false_iff, andb_false_iff, !Nat.ltb_ge. rewrite <- cnt_3. pose proof (cnt_lt s n). lia.
  Qed.

  Hypothesis iter_ok : forall s, exists b, snd (iterate s) = Ok b.
  Hypothesis fin_ok : forall s, snd (finish s) = Ok tt.

  Lemma step_more s n : n <> 0 -> need_more (mkC n (cnt s n)) = true ->
    step true (mkC n (cnt s n)) (after s n) = (true, mkC (S n) (cnt s (S n)), after s (S n), Ok false).
  Proof.
    intros NZ M. unfold refine_step. simpl c_iter. destruct (Nat.eqb_spec n 0); [congruence|]. cbn [negb andb].
    rewrite M. simpl after. destruct (iter_ok (after s n)) as [b E].
    destruct (iterate (after s n)) as [s' r] eqn:EI. simpl in E. subst r. cbn [fst].
    rewrite cnt_step. unfold bump, flag. simpl c_iter. simpl c_stag. rewrite EI. cbn [snd]. reflexivity.
  Qed.

  Lemma step_end s n : n <> 0 -> need_more (mkC n (cnt s n)) = false ->
    step true (mkC n (cnt s n)) (after s n) = (false, mkC n (cnt s n), fst (finish (after s n)), Ok true).
  Proof.
    intros NZ M. unfold refine_step. simpl c_iter. destruct (Nat.eqb_spec n 0); [congruence|]. cbn [negb andb].
    rewrite M. pose proof (fin_ok (after s n)) as F. destruct (finish (after s n)) as [s' r]. simpl in F. subst r. reflexivity.
  Qed.

  Lemma ends_100 s : ends s 100. Proof. left. reflexivity. Qed.

  Lemma ends_dec s n : n <= 100 -> {ends s n} + {~ ends s n}.
  Proof.
    intros L. destruct (need_more (mkC n (cnt s n))) eqn:E.
    - right. intros H. apply need_more_cnt in H; auto. congruence.
    - left. apply need_more_cnt; auto.
  Qed.

  Lemma first_end s : exists n, 4 <= n <= 100 /\ ends s n /\ forall m, m < n -> ~ ends s m.
  Proof.
    assert (H : forall d, (exists n, n <= d /\ ends s n /\ forall m, m < n -> ~ ends s m) \/
                          (d < 100 /\ forall m, m <= d -> ~ ends s m)).
    { induction d as [|d [(n & L & E & M)|[L M]]].
      - right. split; [lia|]. intros m Hm [E|(E & _)]; lia.
      - left. exists n. auto.
      - destruct (ends_dec s (S d)) as [E|E]; [lia| |].
        + left. exists (S d). split; auto. split; auto. intros m Hm. apply M. lia.
        + right. assert (S d <> 100). { intros Q. apply E. left. auto. }
          split; [lia|]. intros m Hm. destruct (Nat.eq_dec m (S d)). subst; auto. apply M. lia. }
    destruct (H 100) as [(n & L & E & M)|[L _]]; [|lia].
    exists n. split; auto. destruct E as [->|(E & _)]; lia.
  Qed.

  Lemma run_from s n : ends s n -> (forall m, m < n -> ~ ends s m) -> n <= 100 ->
    forall fuel k, 1 <= k <= n ->
    if fuel <=? n - k then run fuel true (mkC k (cnt s k)) (after s k) =
       (true, mkC (k + fuel) (cnt s (k + fuel)), after s (k + fuel), NoFuel)
    else run fuel true (mkC k (cnt s k)) (after s k) = (false, mkC n (cnt s n), fst (finish (after s n)), Ok tt).
  Proof.
    intros E M L. induction fuel as [|f IH]; intros k K.
    - simpl. rewrite Nat.add_0_r. reflexivity.
    - destruct (Nat.leb_spec (S f) (n - k)).
      + assert (ME : need_more (mkC k (cnt s k)) = true).
        { destruct (need_more (mkC k (cnt s k))) eqn:Q; auto. apply need_more_cnt in Q; [|lia]. exfalso. apply (M k); auto. lia. }
        cbn [refine]. rewrite step_more by (auto; lia). specialize (IH (S k) ltac:(lia)).
        destruct (Nat.leb_spec f (n - S k)); [|lia]. rewrite IH. replace (S k + f) with (k + S f) by lia. reflexivity.
      + cbn [refine]. destruct (Nat.eq_dec k n) as [->|NE].
        * rewrite step_end; auto. lia. apply need_more_cnt; auto.
        * assert (ME : need_more (mkC k (cnt s k)) = true).
          { destruct (need_more (mkC k (cnt s k))) eqn:Q; auto. apply need_more_cnt in Q; [|lia]. exfalso. apply (M k); auto. lia. }
          rewrite step_more by (auto; lia). specialize (IH (S k) ltac:(lia)).
          destruct (Nat.leb_spec f (n - S k)); [lia|]. exact IH.
  Qed.

  Lemma refine_stops running c s : (running = false \/ c_iter c = 0) -> snd (setup s) = Ok tt ->
    let s0 := fst (setup s) in
    exists n, 4 <= n <= 100 /\ ends s0 n /\ (forall m, m < n -> ~ ends s0 m) /\
    forall fuel, match run fuel running c s with
      | (running', c', s', Ok _) => n < fuel /\ running' = false /\ c_iter c' = n /\ s' = fst (finish (after s0 n))
      | (_, _, _, NoFuel) => fuel <= n
      | _ => False
      end.
  Proof.
    intros F SO s0. destruct (first_end s0) as (n & L & E & M). exists n. split; auto. split; auto. split; auto.
    intros fuel. destruct fuel as [|f]. { simpl. lia. }
    cbn [refine].
    assert (ST : step running c s = (true, mkC 1 (cnt s0 1), after s0 1, Ok false)).
    { unfold refine_step. assert ((running && negb (c_iter c =? 0)%nat)%bool = false) as ->.
      { destruct F as [-> | ->]; auto. rewrite andb_false_r. auto. }
      unfold s0. destruct (setup s) as [s1 r]. cbn [snd] in SO. subst r. cbn [fst]. change (need_more (mkC 0 0)) with true. cbv iota beta.
      simpl after. destruct (iter_ok s1) as [b EI]. destruct (iterate s1) as [s2 r2]. cbn [snd] in EI. subst r2. reflexivity. }
    rewrite ST. pose proof (run_from s0 n E M ltac:(lia) f 1 ltac:(lia)) as R.
    destruct (Nat.leb_spec f (n - 1)); rewrite R; [lia|]. repeat split; auto; lia.
  Qed.
End C.

(** no phases assumption: the loop never runs out of fuel *)
Section D.
  Context {St : Type}.
  Variable setup : St -> St * outcome unit.
  Variable iterate : St -> St * outcome bool.
  Variable finish : St -> St * outcome unit.
  Hypothesis nf1 : forall s, snd (setup s) <> NoFuel.
  Hypothesis nf2 : forall s, snd (iterate s) <> NoFuel.
  Hypothesis nf3 : forall s, snd (finish s) <> NoFuel.
  Notation step := (refine_step setup iterate finish).
  Notation run := (refine setup iterate finish).

  Lemma step_iter running c s running' c' s' : c_iter c <= 100 -> step running c s = (running', c', s', Ok false) ->
    running' = true /\ c_iter c' <> 0 /\ c_iter c' <= 100 /\
    (running = true -> c_iter c <> 0 -> c_iter c' = S (c_iter c)).
  Proof.
    intros L. unfold refine_step. destruct (running && negb (c_iter c =? 0))%bool eqn:R.
    - apply andb_true_iff in R as [-> R]. apply negb_true_iff, Nat.eqb_neq in R.
      destruct (need_more c) eqn:M.
      + destruct (iterate s) as [s1 [b|e| |]]; intros H; inversion H; subst. simpl.
        unfold need_more in M. apply orb_true_iff in M. rewrite andb_true_iff, !Nat.ltb_lt in M. repeat split; auto; lia.
      + destruct (finish s) as [s1 [b|e| |]]; intros H; inversion H.
    - destruct (setup s) as [s0 [u|e| |]]; try (intros H; inversion H; fail).
      change (need_more (mkC 0 0)) with true. cbv iota.
      destruct (iterate s0) as [s1 [b|e| |]]; intros H; inversion H; subst. simpl. repeat split; auto; try lia.
      intros -> NZ. simpl in R. apply negb_false_iff, Nat.eqb_eq in R. congruence.
  Qed.

  Lemma step_nofuel running c s : snd (step running c s) <> NoFuel.
  Proof.
    unfold refine_step.
    pose proof (nf1 s). destruct (running && negb (c_iter c =? 0))%bool.
    - destruct (need_more c).
      + pose proof (nf2 s). destruct (iterate s) as [s1 [b|e| |]]; simpl in *; congruence.
      + pose proof (nf3 s). destruct (finish s) as [s1 [b|e| |]]; simpl in *; congruence.
    - destruct (setup s) as [s0 [u|e| |]]; simpl in *; try congruence.
      change (need_more (mkC 0 0)) with true. cbv iota.
      pose proof (nf2 s0). destruct (iterate s0) as [s1 [b|e| |]]; simpl in *; congruence.
  Qed.

  Lemma run_fuel : forall fuel c s, c_iter c <> 0 -> c_iter c <= 100 -> 101 <= c_iter c + fuel ->
    snd (run fuel true c s) <> NoFuel.
  Proof.
    induction fuel as [|f IH]; intros c s NZ L F. lia.
    cbn [refine]. pose proof (step_nofuel true c s) as NF. pose proof (step_iter true c s) as SI.
    destruct (step true c s) as [[[r' c'] s'] [[|]|e| |]]; simpl in *; try congruence.
    destruct (SI _ _ _ L eq_refl) as (-> & NZ' & L' & I). apply IH; auto. rewrite I; auto. lia.
  Qed.

  Lemma refine_terminates running c s fuel : c_iter c <= 100 -> 101 <= fuel ->
    snd (run fuel running c s) <> NoFuel.
  Proof.
    intros L F. destruct fuel as [|f]; [lia|]. cbn [refine].
    pose proof (step_nofuel running c s) as NF. pose proof (step_iter running c s) as SI.
    destruct (step running c s) as [[[r' c'] s'] [[|]|e| |]]; simpl in *; try congruence.
    destruct (SI _ _ _ L eq_refl) as (-> & NZ' & L' & I). apply run_fuel; auto. lia.
  Qed.

  (** iterations never exceed 100 *)
  Lemma step_bound running c s : c_iter c <= 100 -> c_iter (snd (fst (fst (step running c s)))) <= 100.
  Proof.
    intros L. unfold refine_step. destruct (running && negb (c_iter c =? 0))%bool.
    - destruct (need_more c) eqn:M.
      + destruct (iterate s) as [s1 [b|e| |]]; simpl; auto.
        unfold need_more in M. apply orb_true_iff in M. rewrite andb_true_iff, !Nat.ltb_lt in M. lia.
      + destruct (finish s) as [s1 [b|e| |]]; simpl; auto.
    - destruct (setup s) as [s0 [u|e| |]]; simpl; try lia.
      destruct (iterate s0) as [s1 [b|e| |]]; simpl; lia.
  Qed.
End D.
