(** Proofs about the objects of a session. *)
From Coq Require Import List Arith ZArith Reals Bool Lia Lra.
From Verif Require Import Base NrProof OwnModel OwnSpec.
Import ListNotations.

Definition cnt (l : list bool) : nat := length (filter (fun b => b) l).
Lemma cnt_app l x : cnt (l ++ [x]) = cnt l + if x then 1 else 0.
Proof. unfold cnt. rewrite filter_app, app_length. destruct x; reflexivity. Qed.
Lemma cnt_free l : forall a, nth_error l a = Some true -> cnt l = S (cnt (upd a false l)).
Proof. unfold cnt. induction l as [|b l IH]; intros [|a] H; cbn in *; try discriminate. injection H as ->. reflexivity. specialize (IH a H). destruct b; cbn; lia. Qed.

Lemma free_all xs : forall l, NoDup xs -> (forall a, In a xs -> nth_error l a = Some true) ->
  exists l', ofold free1 xs l = Ok l' /\ cnt l = cnt l' + length xs /\ length l' = length l /\ forall b, ~ In b xs -> nth_error l' b = nth_error l b.
Proof.
  induction xs as [|x xs IH]; intros l N A. exists l. cbn. auto with arith.
  inversion N as [|? ? NI N']; subst. assert (E : nth_error l x = Some true) by (apply A; left; auto).
  destruct (IH (upd x false l) N') as (l' & F & C & L & O).
  - intros a I. rewrite upd_other. apply A. right; auto. intros ->. contradiction.
  - exists l'. cbn [ofold]. unfold free1 at 1. rewrite E. cbn [obind]. split; auto. rewrite (cnt_free l x E). cbn [length]. split. lia. split. rewrite L. apply upd_len.
    intros b NB. rewrite O by (intros I; apply NB; right; auto). apply upd_other. intros ->. apply NB. left; auto.
Qed.

Record good (p : pool) (n : nat) : Prop := mkGood {
  g_nd : NoDup (p_sets p ++ p_phases p);
  g_live : forall a, In a (p_sets p ++ p_phases p) -> nth_error (p_live p) a = Some true;
  g_cnt : cnt (p_live p) = length (p_phases p) + length (p_sets p) + n }.

Lemma alloc_test_iff qmax qdamp rmin rmax bin : alloc_test qmax qdamp rmin rmax bin = false <-> refused (CAlloc qmax qdamp rmin rmax bin).
Proof.
  unfold alloc_test. cbn. destruct (Rlt_dec rmax rmin), (Rlt_dec rmin 0), (Rlt_dec rmax 0), (Z.leb_spec bin 1), (Rlt_dec qmax 0), (Rlt_dec qdamp 0); split; intros; try tauto; try discriminate; exfalso; intuition (try lra; try lia).
Qed.
Lemma old_lt l a : nth_error l a = Some true -> a < length l.
Proof. intros E. apply nth_error_Some. congruence. Qed.

Lemma good_leak p n : good p n -> good (mkPool (p_live p ++ [true]) (p_phases p) (p_sets p)) (S n).
Proof.
  intros [N L C]. split; cbn [p_live p_phases p_sets]; auto. intros a I. rewrite nth_error_app1; auto. apply old_lt; auto. rewrite cnt_app. lia.
Qed.
Lemma good_set p n : good p n -> good (mkPool (p_live p ++ [true]) (p_phases p) (p_sets p ++ [length (p_live p)])) n.
Proof.
  intros [N L C]. split; cbn [p_live p_phases p_sets].
  - rewrite <- app_assoc. apply NoDup_Add with (a := length (p_live p)) (l := p_sets p ++ p_phases p). apply Add_app. split; auto. intros I. apply L in I. apply old_lt in I. lia.
  - intros a. rewrite <- app_assoc. intros I. apply in_app_or in I. cbn in I. destruct I as [I|[<-|I]]; [|apply nth_last|]; rewrite nth_error_app1; try apply old_lt; apply L; apply in_or_app; auto.
  - rewrite cnt_app, app_length. cbn. lia.
Qed.
Lemma good_phase p n : good p n -> good (mkPool (p_live p ++ [true]) (p_phases p ++ [length (p_live p)]) (p_sets p)) n.
Proof.
  intros [N L C]. split; cbn [p_live p_phases p_sets].
  - rewrite app_assoc. apply NoDup_Add with (a := length (p_live p)) (l := (p_sets p ++ p_phases p) ++ []). apply Add_app. rewrite app_nil_r. split; auto. intros I. apply L in I. apply old_lt in I. lia.
  - intros a. rewrite app_assoc. intros I. apply in_app_or in I. cbn in I. destruct I as [I|[<-|[]]]; [|apply nth_last]. rewrite nth_error_app1; try apply old_lt; apply L; auto.
  - rewrite cnt_app, app_length. cbn. lia.
Qed.
Lemma good_fail p n : good p n -> exists l, free1 (p_live p ++ [true]) (length (p_live p)) = Ok l /\ good (mkPool l (p_phases p) (p_sets p)) n.
Proof.
  intros G. pose proof (good_leak p n G) as [N L C]. cbn [p_live p_phases p_sets] in *. unfold free1. rewrite nth_last. eexists. split. reflexivity. rewrite upd_last. destruct G as [N0 L0 C0]. split; cbn [p_live p_phases p_sets]; auto.
  intros a I. rewrite nth_error_app1; auto. apply old_lt; auto. rewrite cnt_app. lia.
Qed.
Lemma good_reset p n : good p n -> exists l, obind (ofold free1 (p_sets p) (p_live p)) (fun l => ofold free1 (p_phases p) l) = Ok l /\ good (mkPool l [] []) n.
Proof.
  intros [N L C]. destruct (free_all (p_sets p) (p_live p)) as (l1 & E1 & C1 & _ & O1).
  - clear - N. induction (p_sets p); cbn in *. constructor. inversion N; subst. constructor; auto. intros I. apply H1. apply in_or_app; auto.
  - intros a I. apply L. apply in_or_app; auto.
  - assert (NP : NoDup (p_phases p)). { clear - N. induction (p_sets p); cbn in *; auto. inversion N; subst. auto. }
    assert (DJ : forall a, In a (p_phases p) -> ~ In a (p_sets p)).
    { clear - N. induction (p_sets p); cbn in *. auto. inversion N; subst. intros x I [->|J]. apply H1. apply in_or_app; auto. apply (IHl H2 x I J). }
    destruct (free_all (p_phases p) l1) as (l2 & E2 & C2 & _ & _); auto.
    { intros a I. rewrite O1 by auto. apply L. apply in_or_app; auto. }
    exists l2. rewrite E1. cbn [obind]. split; auto. split; cbn [p_live p_phases p_sets app length]. constructor. intros ? []. lia.
Qed.

Lemma step_good p n c : good p n -> exists p', scall_step p c = Ok p' /\ (refused c -> good p' (S n)) /\ (~ refused c -> good p' n).
Proof.
  intros G. destruct c as [[]|[]|qmax qdamp rmin rmax bin|]; unfold scall_step.
  - eexists. split. reflexivity. split. intros []. intros _. apply good_phase; auto.
  - destruct (good_fail p n G) as (l & E & G'). rewrite E. cbn [obind]. eexists. split. reflexivity. split. intros []. auto.
  - eexists. split. reflexivity. split. intros []. intros _. apply good_set; auto.
  - destruct (good_fail p n G) as (l & E & G'). rewrite E. cbn [obind]. eexists. split. reflexivity. split. intros []. auto.
  - destruct (alloc_test qmax qdamp rmin rmax bin) eqn:E; eexists; (split; [reflexivity|]); split; intros R.
    + apply alloc_test_iff in R. congruence.
    + apply good_set; auto.
    + apply good_leak; auto.
    + exfalso. apply R. apply alloc_test_iff; auto.
  - destruct (good_reset p n G) as (l & E & G'). destruct (ofold free1 (p_sets p) (p_live p)); cbn [obind] in *; try discriminate. rewrite E. cbn [obind]. eexists. split. reflexivity. split. intros []. auto.
Qed.

Lemma run_good cs : forall p n m, good p n -> times refused cs m -> exists p', ofold scall_step cs p = Ok p' /\ good p' (n + m).
Proof.
  induction cs as [|c cs IH]; intros p n m G T. inversion T; subst. exists p. rewrite Nat.add_0_r. auto.
  destruct (step_good p n c G) as (p1 & E & Y & N). cbn [ofold]. rewrite E. cbn [obind]. inversion T as [|? ? k R T'|? ? k R T']; subst.
  - destruct (IH p1 (S n) k) as (p' & E' & G'); auto. exists p'. split; auto. replace (n + S k) with (S n + k) by lia. auto.
  - apply IH; auto.
Qed.
Lemma good_init : good (mkPool [] [] []) 0.
Proof. split; cbn; auto. constructor. tauto. Qed.

Lemma objects cs n : times refused cs n -> exists p, own_run cs = Ok p /\ NoDup (p_phases p ++ p_sets p) /\
  (forall a, In a (p_phases p ++ p_sets p) -> nth_error (p_live p) a = Some true) /\ existing p = length (p_phases p) + length (p_sets p) + n.
Proof.
  intros T. destruct (run_good cs _ 0 n good_init T) as (p & E & [N L C]). exists p. split; auto. split; [|split; auto].
  - clear - N. revert N. generalize (p_sets p) (p_phases p). intros x y. induction x; cbn; intros N. rewrite app_nil_r; auto. inversion N; subst.
    apply NoDup_Add with (a := a) (l := y ++ x). apply Add_app. split; auto. intros I. apply H1. apply in_or_app. apply in_app_or in I. tauto.
  - intros a I. apply L. apply in_or_app. apply in_app_or in I. tauto.
Qed.
Lemma times_app P cs : forall n c, times P cs n -> ~ P c -> times P (cs ++ [c]) n.
Proof. induction cs as [|x cs IH]; intros n c T N; inversion T; subst; cbn. apply t_no; auto. apply t_yes; auto. apply t_no; auto. Qed.
Lemma reset_empty cs : forall p p', ofold scall_step (cs ++ [CReset]) p = Ok p' -> p_phases p' = [] /\ p_sets p' = [].
Proof.
  induction cs as [|c cs IH]; intros p p'.
  - cbn [app ofold]. unfold scall_step. destruct (ofold free1 (p_sets p) (p_live p)); cbn [obind]; try discriminate. destruct (ofold free1 (p_phases p) a); cbn [obind]; try discriminate. intros E. injection E as <-. auto.
  - cbn [app ofold]. destruct (scall_step p c); cbn [obind]; try discriminate. apply IH.
Qed.
Lemma at_end cs n : times refused cs n -> exists p, own_run (cs ++ [CReset]) = Ok p /\ existing p = n.
Proof.
  intros T. destruct (objects (cs ++ [CReset]) n) as (p & E & _ & _ & C). apply times_app; auto. exists p. split; auto. destruct (reset_empty cs _ _ E) as [E1 E2]. rewrite E1, E2 in C. exact C.
Qed.
Lemma leaks : exists c p, own_run [c; CReset] = Ok p /\ existing p = 1.
Proof. destruct (at_end [CAlloc 0 0 0 1 1] 1) as (p & E & X). apply t_yes. cbn. right. lia. constructor. eauto. Qed.
