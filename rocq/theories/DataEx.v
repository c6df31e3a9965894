(** Arrays, and example texts. *)
From Coq Require Import Ascii String List Arith ZArith Reals Bool Lia Lra.
From Verif Require Import Base ParserModel PdfModel PdfSpec PdfFinal DataModel DataSpec DataProof DataFinal DataPlot.
Import ListNotations.
Local Open Scope R_scope.

Lemma nsqrt_inv v : match nsqrt v with Some q => ndiv (Some 1) (Some q) | None => None end = if Rlt_dec 0 v then Some (1 / sqrt v) else None.
Proof.
  unfold nsqrt, ndiv. destruct (Rlt_dec v 0).
  - destruct (Rlt_dec 0 v); [lra|]. auto.
  - destruct (Rlt_dec 0 v).
    + destruct (Req_EM_T (sqrt v) 0) as [E|E]; auto. apply sqrt_eq_0 in E; lra.
    + assert (v = 0) as -> by lra. rewrite sqrt_0. destruct (Req_EM_T 0 0); [auto|lra].
Qed.
Lemma arrays_ok r gr dgr : r <> [] -> 
  (regular r -> exists s, read_data_arrays r gr dgr = Ok s /\ dt_obs s = gr /\ dt_wic s = array_weights gr dgr /\
     dt_rmin s = nth 0 r 0 /\ dt_rmax s = nth (length r - 1) r 0 /\ dt_bin s = Z.of_nat (length r) /\ dt_nfmin s = 0%Z /\ dt_nfmax s = 0%Z /\
     ((2 <= length r)%nat -> dt_deltar s = Some ((nth (length r - 1) r 0 - nth 0 r 0) / (INR (length r) - 1))) /\ (length r = 1%nat -> dt_deltar s = None)) /\
  (~ regular r -> read_data_arrays r gr dgr = Err ErrData).
Proof.
  intros Ne. unfold read_data_arrays. destruct r as [|a r]; [congruence|]. rewrite last_nth by discriminate. split.
  - intros Hr. apply regular_spec in Hr. rewrite Hr. cbn [negb]. eexists. split; [reflexivity|].
    cbn [dt_obs dt_wic dt_rmin dt_rmax dt_bin dt_nfmin dt_nfmax dt_deltar]. split; auto. split.
    { unfold array_weights. destruct dgr; auto. apply map_ext. intros; apply nsqrt_inv. }
    split; auto. split; auto. split; auto. split; auto. split; auto. rewrite <- INR_IZR_INZ. split.
    + intros L. unfold ndiv. destruct (Req_EM_T (INR (length (a :: r)) - 1) 0) as [E|E]; auto. exfalso.
      apply le_INR in L. change (INR 2) with (1 + 1) in L. lra.
    + intros L. rewrite L. simpl. unfold ndiv. destruct (Req_EM_T (1 - 1) 0); [auto|lra].
  - intros Hr. destruct (is_regular (a :: r)) eqn:E; [apply regular_spec in E; tauto|]. auto.
Qed.

(** arrays read, nothing calculated: the whole grid against one point *)
Lemma before_calc r gr dgr s dr : length gr = length r -> (2 <= length r)%nat -> (Z.of_nat (length r) <= 2147483647)%Z ->
  read_data_arrays r gr dgr = Ok s -> dt_deltar s = Some dr -> dr <> 0 ->
  exists x o, get_r (fresh_view s dr) = Ok x /\ getpdf_obs (fresh_view s dr) = Ok o /\ length x = length r /\ length o = 1%nat.
Proof.
  intros Lg L2 Lm H D N. assert (r <> []) as Ne by (intros ->; simpl in L2; lia).
  destruct (arrays_ok r gr dgr Ne) as [A B]. destruct (is_regular r) eqn:Er; [|rewrite B in H; [discriminate|intros C; apply regular_spec in C; congruence]].
  apply regular_spec in Er. destruct (A Er) as (s' & Q & Eo & _ & Ea & Eb & Ebin & E0 & E1 & Ed & _). rewrite Q in H. inversion H; subst s'. clear A B H.
  specialize (Ed L2). rewrite D in Ed. injection Ed as Edr.
  assert (INR (length r) - 1 <> 0) as Nz. { apply le_INR in L2. change (INR 2) with (1 + 1) in L2. lra. }
  unfold get_r, getpdf_obs, fresh_view. cbn [vw_nfmin vw_nfmax vw_rmin vw_rmax vw_deltar vw_obs]. rewrite E0, E1, Eo, Ea, Eb.
  change (0 - 0 + 1 =? 1)%Z with true. cbv iota. destruct (Req_EM_T dr 0); [congruence|].
  assert ((nth (length r - 1) r 0 - nth 0 r 0) / dr = IZR (Z.of_nat (length r) - 1)) as Eq.
  { rewrite minus_IZR, <- INR_IZR_INZ. 
    assert (nth (length r - 1) r 0 - nth 0 r 0 = dr * (INR (length r) - 1)) as -> by (rewrite Edr; field; auto). field. auto. }
    rewrite Eq. assert (ztrunc (IZR (Z.of_nat (length r) - 1)) = (Z.of_nat (length r) - 1)%Z) as ->.
  { unfold ztrunc. destruct (Rlt_dec (IZR (Z.of_nat (length r) - 1)) 0) as [X|X]. apply lt_IZR in X. lia.
    pose proof (PdfFinal.zfloor_spec (IZR (Z.of_nat (length r) - 1))) as [P Q']. apply le_IZR in P.
    assert (IZR (Z.of_nat (length r) - 1) < IZR (SphereModel.zfloor (IZR (Z.of_nat (length r) - 1)) + 1)) as Q2 by (rewrite plus_IZR; auto). apply lt_IZR in Q2. lia. }
  assert (to_int (Z.of_nat (length r) - 1) = Ok (Z.of_nat (length r) - 1)%Z) as ->.
  { unfold to_int. destruct (Z.leb_spec (-2147483648) (Z.of_nat (length r) - 1)); [|lia]. destruct (Z.leb_spec (Z.of_nat (length r) - 1) 2147483647); [|lia]. auto. }
  cbn [obind]. rewrite (py_list_ok _ (fun i => IZR i * dr + nth 0 r 0)) by (auto; lia).
  rewrite (py_list_ok _ (fun i => Some (nth (Z.to_nat i) gr 0))); [|lia|intros i I; rewrite (rdz_ok _ _ 0) by (rewrite Lg; lia); auto].
  eexists _, _. split; [reflexivity|]. split; [reflexivity|]. rewrite !map_length. unfold zloop. rewrite !map_length, !seq_length. lia.
Qed.

(** ** example texts *)
Definition nm (k : nat) : numeral := mkNum None [k] None None.
Lemma nm_ok k : (k < 10)%nat -> numeral_ok (nm k).
Proof. intros H. unfold numeral_ok, nm; simpl. repeat split; auto. discriminate. Qed.
Lemma nm_val k : numeral_value (nm k) = INR k.
Proof. unfold numeral_value, nm; simpl. ring. Qed.
Definition sp : text := [" "%char].
Definition row3 (a b c : nat) : list (text * numeral) * text := ([([], nm a); (sp, nm b); (sp, nm c)], []).
Lemma row3_ok a b c : (a < 10)%nat -> (b < 10)%nat -> (c < 10)%nat -> row_ok (fst (row3 a b c)) (snd (row3 a b c)).
Proof.
  intros. unfold row_ok, row3; simpl. split; [|split; [|split]].
  - repeat (apply Forall_cons; [split; [simpl; unfold blanks, sp; auto|apply nm_ok; auto]|]). apply Forall_nil.
  - repeat constructor; discriminate.
  - exists [], []. repeat split; constructor.
  - right. exact I.
Qed.
(** a text with a header "#x", two rows of three single digits and nothing after *)
Definition text3 (a b c a' b' c' : nat) : text := text_of ([chars "#x"] ++ table_lines [row3 a b c; row3 a' b' c'] ++ []) false.
Lemma table3 a b c a' b' c' : Forall (fun k => (k < 10)%nat) [a; b; c; a'; b'; c'] ->
  header [chars "#x"] /\ is_table 3 [row3 a b c; row3 a' b' c'] [] /\ good_lines ([chars "#x"] ++ table_lines [row3 a b c; row3 a' b' c'] ++ []) false.
Proof.
  intros F. repeat match goal with H : Forall _ (_ :: _) |- _ => inversion H; clear H; subst end.
  split. { left. repeat constructor. exists ["x"%char]. auto. }
  split. { split; [lia|]. split; [discriminate|]. split; auto. constructor; [|constructor; auto]; split; auto; apply row3_ok; auto. }
  split; [|split; [|discriminate]].
  - assert (forall k, (k < 10)%nat -> ascii_of_nat (48 + k) <> newline) as K by (intros k Hk; pattern k; apply lt10; auto; discriminate).
    simpl. repeat constructor; simpl; intros Q; repeat (destruct Q as [Q|Q]; [try discriminate; eapply K in Q; eauto|]); auto.
  - intros _. simpl. discriminate.
Qed.
Lemma regular2 r : length r = 2%nat -> regular r.
Proof.
  intros L. unfold regular. intros _ i H. assert (i = 0%nat) as -> by lia. rewrite L. simpl (2 - 1)%nat. change (INR 2) with (1 + 1).
  replace (nth 1 r 0 - nth 0 r 0 - (nth 1 r 0 - nth 0 r 0) / (1 + 1 - 1)) with 0 by field. rewrite Rabs_R0. lra.
Qed.
Lemma read3 a b c a' b' c' fuel : Forall (fun k => (k < 10)%nat) [a; b; c; a'; b'; c'] -> (5 < fuel)%nat ->
  exists w s, weights_are 3 [[INR a; INR b; INR c]; [INR a'; INR b'; INR c']] w /\ read_data_stream fuel (text3 a b c a' b' c') = Ok s /\
  holds_data [INR a; INR a'] [INR b; INR b'] w s.
Proof.
  intros F L. destruct (table3 _ _ _ _ _ _ F) as (H & T & G). destruct (reads_table _ _ _ _ _ fuel H T G ltac:(simpl; lia)) as (w & W & A & _).
  simpl map in W. unfold row_values in W. simpl in W. rewrite !nm_val in W.
  unfold column, row_values in A. simpl map in A. cbn [nth] in A. rewrite !nm_val in A.
  destruct A as (s & Q & Hd). { split. apply regular2; auto. auto. } exists w, s. auto.
Qed.

Lemma constant_wit : exists t s, (forall fuel, (5 < fuel)%nat -> read_data_stream fuel t = Ok s) /\ dt_rmin s = dt_rmax s /\ dt_deltar s = Some 0.
Proof.
  assert (Forall (fun k => (k < 10)%nat) [1; 2; 1; 1; 2; 1]%nat) as F by (repeat constructor).
  exists (text3 1 2 1 1 2 1), (mkDset 1 1 (Some 0) 2 [1 + 1; 1 + 1] [Some 1; Some 1] 0 1). split.
  - intros fuel L. destruct (read3 1 2 1 1 2 1 fuel F L) as (w & s & W & Q & (A & B & C & D & E & G & H & I)). rewrite Q. f_equal.
    destruct s as [r0 r1 dr bin ob wi n0 n1]. cbn [dt_obs dt_wic dt_rmin dt_rmax dt_bin dt_nfmin dt_nfmax dt_deltar] in *. subst.
    simpl nth. simpl length. simpl INR. replace ((1 - 1) / (1 + 1 - 1)) with 0 by field. f_equal.
    destruct W as [(_ & _ & ->)|(_ & ->)]; simpl; auto. replace (1 / (1 * 1)) with 1 by field. auto.
  - cbn [dt_rmin dt_rmax dt_deltar]. auto.
Qed.
Lemma decreasing_wit : exists t s, (forall fuel, (5 < fuel)%nat -> read_data_stream fuel t = Ok s) /\ dt_rmax s < dt_rmin s /\ dt_deltar s = Some (-1).
Proof.
  assert (Forall (fun k => (k < 10)%nat) [2; 2; 1; 1; 2; 1]%nat) as F by (repeat constructor).
  exists (text3 2 2 1 1 2 1), (mkDset (1 + 1) 1 (Some (-1)) 2 [1 + 1; 1 + 1] [Some 1; Some 1] 0 1). split.
  - intros fuel L. destruct (read3 2 2 1 1 2 1 fuel F L) as (w & s & W & Q & (A & B & C & D & E & G & H & I)). rewrite Q. f_equal.
    destruct s as [r0 r1 dr bin ob wi n0 n1]. cbn [dt_obs dt_wic dt_rmin dt_rmax dt_bin dt_nfmin dt_nfmax dt_deltar] in *. subst.
    simpl nth. simpl length. simpl INR. replace ((1 - (1 + 1)) / (1 + 1 - 1)) with (-1) by field. f_equal.
    destruct W as [(_ & _ & ->)|(_ & ->)]; simpl; auto. replace (1 / (1 * 1)) with 1 by field. auto.
  - cbn [dt_rmin dt_rmax dt_deltar]. split; auto. lra.
Qed.
Lemma weights_wit : exists t s s', (forall fuel, (5 < fuel)%nat -> read_data_stream fuel t = Ok s) /\
  read_data_arrays [1; 2] [3; 5] (Some [4; 4]) = Ok s' /\ dt_obs s = [3; 5] /\ dt_rmin s = 1 /\ dt_rmax s = 2 /\
  dt_wic s = [Some (1 / 16); Some (1 / 16)] /\ dt_wic s' = [Some (1 / 2); Some (1 / 2)].
Proof.
  assert (Forall (fun k => (k < 10)%nat) [1; 3; 4; 2; 5; 4]%nat) as F by (repeat constructor).
  destruct (arrays_ok [1; 2] [3; 5] (Some [4; 4]) ltac:(discriminate)) as [A0 _].
  destruct (A0 (regular2 [1; 2] eq_refl)) as (s' & Q' & _ & W' & _).
  exists (text3 1 3 4 2 5 4), (mkDset 1 2 (Some 1) 2 [3; 5] [Some (1 / 16); Some (1 / 16)] 0 1), s'.
  split.
  - intros fuel L. destruct (read3 1 3 4 2 5 4 fuel F L) as (w & s & W & Q & (A & B & C & D & E & G & H & I)). rewrite Q. f_equal.
    destruct s as [r0 r1 dr bin ob wi n0 n1]. cbn [dt_obs dt_wic dt_rmin dt_rmax dt_bin dt_nfmin dt_nfmax dt_deltar] in *. subst.
    simpl nth. simpl length. change (INR 2) with (1 + 1). replace (1 + 1) with 2 by ring. change (INR 1) with 1. replace ((2 - 1) / (2 - 1)) with 1 by field.
    replace (INR 3) with 3 by (simpl; ring). replace (INR 5) with 5 by (simpl; ring). f_equal.
    assert (INR 4 = 4) as E4 by (simpl; ring). rewrite E4 in W.
    destruct W as [(_ & _ & ->)|(N & _)].
    + simpl. replace (1 / (4 * 4)) with (1 / 16) by field. auto.
    + exfalso. apply N. split; auto. repeat constructor; simpl; lra.
  - split; auto. cbn [dt_obs dt_rmin dt_rmax dt_wic]. split; auto. split; auto. split; auto. split; auto.
    rewrite W'. unfold array_weights. simpl. destruct (Rlt_dec 0 4); [|lra].
    assert (sqrt 4 = 2) as ->; auto. replace 4 with (2 * 2) by ring. apply sqrt_square. lra.
Qed.

Lemma endless : forall fuel, read_data_stream fuel (chars "#") = NoFuel.
Proof.
  intros fuel. change (chars "#") with (text_of [chars "#"] false). apply stuck_forever.
  - split; [|split; [|discriminate]]. repeat constructor. simpl. intros [H|[]]. discriminate. intros _. simpl. discriminate.
  - split; auto. split; [discriminate|]. right. split.
    + intros (r & ls & H). discriminate.
    + repeat constructor. exists []. auto.
Qed.

Lemma stuck_case : good_lines [chars "#a"; chars "1 2"] false /\ ~ stuck [chars "#a"; chars "1 2"] false /\
  good_lines [chars "#a"; chars "#b"] false /\ stuck [chars "#a"; chars "#b"] false.
Proof.
  assert (forall l, good_lines [chars "#a"; l] false <-> ~ In newline l /\ l <> []) as G.
  { intros l. split.
    - intros (F & L & _). split. inversion F; subst. inversion H2; auto. apply (L eq_refl).
    - intros [A B]. split; [|split; [auto|discriminate]]. constructor; auto. simpl. intros Q; repeat (destruct Q as [Q|Q]; [discriminate|]); auto. }
  split; [|split; [|split]].
  - apply G. split; [|discriminate]. simpl. intros Q; repeat (destruct Q as [Q|Q]; [discriminate|]); auto.
  - intros (_ & _ & [((r & ls & H) & _)|(_ & F)]). discriminate. inversion F; subst. inversion H2; subst. destruct H3 as [q H]. discriminate.
  - apply G. split; [|discriminate]. simpl. intros Q; repeat (destruct Q as [Q|Q]; [discriminate|]); auto.
  - split; auto. split; [discriminate|]. right. split. intros (r & ls & H). discriminate.
    constructor; [eexists; reflexivity|]. constructor; [eexists; reflexivity|auto].
Qed.

Lemma table_case : header [chars "#x"] /\ is_table 3 [row3 1 3 4; row3 2 5 4] [] /\ good_lines ([chars "#x"] ++ table_lines [row3 1 3 4; row3 2 5 4] ++ []) false /\
  regular [INR 1; INR 2].
Proof.
  destruct (table3 1 3 4 2 5 4) as (A & B & C). repeat constructor. split; [exact A|]. split; [exact B|]. split; [exact C|]. apply regular2. reflexivity.
Qed.
