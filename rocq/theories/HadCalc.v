(** Functions of many variables that have a derivative along every differentiable path. *)
From Coq Require Import List Arith ZArith Reals Bool Lia Lra FunctionalExtensionality.
From Verif Require Import Base RSum MathModel ParserDeriv MathProof DerivCalc DerivSpec DerivFinal GradFinal PdfSum ScaleFinal.
Import ListNotations.
Local Open Scope R_scope.

Section Had.
Variable vs : list nat.
Hypothesis ND : NoDup vs.
Variable e : nat -> R.

(** values that are those of e at x0 and change with x, those in vs only *)
Definition path (c : R -> nat -> R) (x0 : R) (dc : nat -> R) : Prop :=
  (forall a, c x0 a = e a) /\ (forall a, In a vs -> derivable_pt_lim (fun x => c x a) x0 (dc a)) /\ forall a, ~ In a vs -> forall x, c x a = e a.
Definition Grad (F : (nat -> R) -> R) (k : nat -> R) : Prop := forall c x0 dc, path c x0 dc -> derivable_pt_lim (fun x => F (c x)) x0 (lsum (fun a => k a * dc a) vs).
Definition Had (F : (nat -> R) -> R) : Prop := exists k, Grad F k.
(** F does not depend on what changes *)
Definition Still {A} (F : (nat -> R) -> A) : Prop := forall m, (forall a, ~ In a vs -> m a = e a) -> F m = F e.

Lemma path_start c x0 dc : path c x0 dc -> c x0 = e.
Proof. intros (H & _). apply functional_extensionality. exact H. Qed.
Lemma path_still {A} (F : (nat -> R) -> A) c x0 dc x : path c x0 dc -> Still F -> F (c x) = F e.
Proof. intros (_ & _ & H) S. apply S. intros a N. apply H. auto. Qed.

Lemma had_still F : Still F -> Had F.
Proof.
  intros S. exists (fun _ => 0). intros c x0 dc P. eapply dl_eq. apply (dlim_ext (fun _ => F e)). intros x. symmetry. eapply path_still; eauto. apply dlim_const.
  rewrite lsum_zero; auto. intros; ring.
Qed.
Lemma had_const r : Had (fun _ => r).
Proof. apply had_still. intros m _. reflexivity. Qed.
Lemma had_mem a : Had (fun m => m a).
Proof.
  destruct (in_dec Nat.eq_dec a vs) as [I|N]. 2:{ apply had_still. intros m H. auto. }
  exists (fun b => if (b =? a)%nat then 1 else 0). intros c x0 dc (_ & H & _). eapply dl_eq. apply (H a I).
  rewrite (lsum_once (fun k => k) _ a); auto. rewrite Nat.eqb_refl; ring. rewrite map_id; auto. intros b _ Q. destruct (Nat.eqb_spec b a); [contradiction|ring].
Qed.
Lemma had_ext F G : (forall m, F m = G m) -> Had F -> Had G.
Proof. intros H (k & K). exists k. intros c x0 dc P. apply (dlim_ext (fun x => F (c x))); auto. Qed.
(** composition with a differentiable function *)
Lemma had_comp phi y F : derivable_pt_lim phi (F e) y -> Had F -> Had (fun m => phi (F m)).
Proof.
  intros D (k & K). exists (fun a => y * k a). intros c x0 dc P. eapply dl_eq. apply (derivable_pt_lim_comp (fun x => F (c x)) phi x0 _ y (K c x0 dc P)). rewrite (path_start _ _ _ P). exact D.
  rewrite <- lsum_scal. apply lsum_ext. intros; ring.
Qed.
Lemma had_plus F G : Had F -> Had G -> Had (fun m => F m + G m).
Proof.
  intros (k & K) (j & J). exists (fun a => k a + j a). intros c x0 dc P. eapply dl_eq. apply dp. apply (K c x0 dc P). apply (J c x0 dc P). rewrite <- lsum_plus. apply lsum_ext. intros; ring.
Qed.
Lemma had_opp F : Had F -> Had (fun m => - F m).
Proof. intros (k & K). exists (fun a => - k a). intros c x0 dc P. eapply dl_eq. apply dop. apply (K c x0 dc P). replace (- lsum (fun a => k a * dc a) vs) with (-1 * lsum (fun a => k a * dc a) vs) by ring. rewrite <- lsum_scal. apply lsum_ext. intros; ring. Qed.
Lemma had_minus F G : Had F -> Had G -> Had (fun m => F m - G m).
Proof. intros H1 H2. apply (had_ext (fun m => F m + - G m)). intros; ring. apply had_plus; auto. apply had_opp; auto. Qed.
Lemma had_mult F G : Had F -> Had G -> Had (fun m => F m * G m).
Proof.
  intros (k & K) (j & J). exists (fun a => G e * k a + F e * j a). intros c x0 dc P. eapply dl_eq. apply dm. apply (K c x0 dc P). apply (J c x0 dc P). cbv beta. rewrite (path_start _ _ _ P).
  rewrite Rmult_comm. rewrite <- !lsum_scal, <- lsum_plus. apply lsum_ext. intros; ring.
Qed.
Lemma had_inv F : F e <> 0 -> Had F -> Had (fun m => / F m).
Proof. intros N. apply had_comp with (y := - 1 / (F e * F e)). apply (dinv (fun y => y)); auto. apply did. Qed.
Lemma had_div F G : G e <> 0 -> Had F -> Had G -> Had (fun m => F m / G m).
Proof. intros N H1 H2. apply had_mult; auto. apply had_inv; auto. Qed.
Lemma had_sqrt F : 0 < F e -> Had F -> Had (fun m => sqrt (F m)).
Proof. intros N. apply had_comp with (y := 1 / (2 * sqrt (F e))). apply (dsq (fun y => y)); auto. apply did. Qed.
Lemma had_exp F : Had F -> Had (fun m => exp (F m)).
Proof. apply had_comp with (y := exp (F e)). apply derivable_pt_lim_exp. Qed.
Lemma had_cos F : Had F -> Had (fun m => cos (F m)).
Proof. apply had_comp with (y := - sin (F e)). apply derivable_pt_lim_cos. Qed.
Lemma had_lsum {A} (l : list A) (F : A -> (nat -> R) -> R) : (forall b, In b l -> Had (F b)) -> Had (fun m => lsum (fun b => F b m) l).
Proof.
  induction l as [|b l IH]; intros H. apply (had_const 0). apply (had_ext (fun m => F b m + lsum (fun b => F b m) l)). reflexivity. apply had_plus. apply H; left; auto. apply IH. intros; apply H; right; auto.
Qed.
Lemma had_rsum n (F : nat -> (nat -> R) -> R) : (forall i, (i < n)%nat -> Had (F i)) -> Had (fun m => rsum n (fun i => F i m)).
Proof.
  intros H. apply (had_ext (fun m => lsum (fun i => F i m) (seq 0 n))). intros; apply (lsum_seq (fun i => F i m)). apply had_lsum. intros b I. apply in_seq in I. apply H. lia.
Qed.
Lemma had_bool (b : bool) F : (b = true -> Had F) -> Had (fun m => if b then F m else 0).
Proof. destruct b; auto. intros _. apply (had_const 0). Qed.
(** a threshold that F does not meet, or meets and keeps *)
Lemma had_side F r G H : Had F -> (F e = r -> Still F) -> Had G -> Had H -> Had (fun m => if Rlt_dec (F m) r then G m else H m).
Proof.
  intros (k & K) S HG HH.
  assert (KEEP : Still F -> Had (fun m => if Rlt_dec (F m) r then G m else H m)).
  { intros S'. destruct (Rlt_dec (F e) r) as [L|L].
    - destruct HG as (j & J). exists j. intros c x0 dc P. apply (dlim_ext (fun x => G (c x))); [|apply J; auto]. intros x. rewrite (path_still F c x0 dc x P S'). destruct (Rlt_dec (F e) r); [reflexivity|contradiction].
    - destruct HH as (j & J). exists j. intros c x0 dc P. apply (dlim_ext (fun x => H (c x))); [|apply J; auto]. intros x. rewrite (path_still F c x0 dc x P S'). destruct (Rlt_dec (F e) r); [contradiction|reflexivity]. }
  destruct (Req_dec (F e) r) as [E|N]. auto. destruct (Rlt_dec (F e) r) as [L|L].
  - destruct HG as (j & J). exists j. intros c x0 dc P. destruct (side_lt (fun x => F (c x)) x0 r) as (ep & EP & X). eapply dcont. apply (K c x0 dc P). rewrite (path_start _ _ _ P); auto.
    apply (dlim_near (fun x => G (c x)) _ _ _ ep); auto. intros x Hx. destruct (Rlt_dec (F (c x)) r) as [|Q]; auto. exfalso. apply Q. apply X. auto.
  - destruct HH as (j & J). exists j. intros c x0 dc P. destruct (side_gt (fun x => F (c x)) x0 r) as (ep & EP & X). eapply dcont. apply (K c x0 dc P). rewrite (path_start _ _ _ P); lra.
    apply (dlim_near (fun x => H (c x)) _ _ _ ep); auto. intros x Hx. destruct (Rlt_dec (F (c x)) r) as [Q|]; auto. exfalso. specialize (X x Hx). lra.
Qed.

(** the parts of the gradient are the derivatives for one variable at a time *)
Lemma grad_part F k a : Grad F k -> In a vs -> derivable_pt_lim (fun x => F (fun b => if (b =? a)%nat then x else e b)) (e a) (k a).
Proof.
  intros K I. eapply dl_eq. apply (K (fun x b => if (b =? a)%nat then x else e b) (e a) (fun b => if (b =? a)%nat then 1 else 0)).
  - split; [|split].
    + intros b. destruct (Nat.eqb_spec b a) as [->|]; auto.
    + intros b _. destruct (Nat.eqb_spec b a) as [->|]. apply did. apply dlim_const.
    + intros b N x. destruct (Nat.eqb_spec b a) as [->|]; auto. contradiction.
  - rewrite (lsum_once (fun k => k) _ a); auto. rewrite Nat.eqb_refl; ring. rewrite map_id; auto. intros b _ Q. destruct (Nat.eqb_spec b a); [contradiction|ring].
Qed.
End Had.
