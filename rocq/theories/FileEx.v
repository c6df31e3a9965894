(** Concrete sessions with files, and what does not hold of names and saved files. *)
From Coq Require Import Ascii String.
From Coq Require Import List Arith ZArith Reals Bool Lia Lra.
From Verif Require Import Base BindModel FileModel FileSpec FileProof.
From Verif Require ParserModel StruModel StruSpec StruEx DataModel DataEx SessModel SessSpec SessProof SessProof2.
Import ListNotations.

Section Calls.
Context (look : list ascii -> option SessModel.tyid) (mks : StruModel.sphase -> SessModel.stru_content) (mkd : DataModel.dset -> SessModel.data_content) (fuel : nat).
Context (Lf : (5 < fuel)%nat).
Notation pstep := (pstep look mks mkd fuel).
Notation reached := (reached look mks mkd fuel).
Notation prun := (prun look mks mkd fuel).

Definition s_text : text := StruSpec.lines_text (StruEx.ex_head StruEx.n4) ++ StruEx.body.
Definition d_text : text := DataEx.text3 1 1 1 2 1 1.
Lemma d_reads : exists ds, DataModel.read_data_stream fuel d_text = Ok ds.
Proof.
  assert (F : Forall (fun k => (k < 10)%nat) [1; 1; 1; 2; 1; 1]%nat) by (repeat constructor; lia).
  destruct (DataEx.read3 1 1 1 2 1 1 fuel F Lf) as (w & s & _ & E & _). eauto.
Qed.
Definition accepted (fs : files) (o : pop) : Prop :=
  match o with
  | PStruct f => fs f = Some s_text
  | PStructString t _ | PAddStructure t => t = s_text
  | PData f => fs f = Some d_text
  | PDataString t _ => t = d_text
  | PAlloc qmax qdamp rmin rmax bin => SessSpec.alloc_args qmax qdamp rmin rmax bin
  | PReset => True
  | _ => False
  end.
Lemma struct_there c p : SessProof.inv (pf_ses p) -> exists p', load_struct mks c s_text p = (p', PVal tt).
Proof.
  intros I. unfold load_struct. unfold s_text. rewrite StruEx.ex_ok. destruct (SessProof2.read_struct_new (mks (StruEx.ex_p StruEx.n4)) _ I) as (s' & q & E & _). rewrite E. cbn. eauto.
Qed.
Lemma data_there c n p : SessProof.inv (pf_ses p) -> exists p', load_data mkd c n (DataModel.read_data_stream fuel d_text) p = (p', PVal tt).
Proof.
  intros I. unfold load_data. destruct d_reads as (ds & ->). destruct (SessProof2.read_data_new (mkd ds) _ I) as (s' & q & E & _). rewrite E. cbn. eauto.
Qed.
Lemma step_there fs o p sh : matches sh p -> accepted fs o -> exists p', pstep fs o p = (p', PVal tt) /\ matches (shelve sh (o, true)) p'.
Proof.
  intros M A. assert (exists p', pstep fs o p = (p', PVal tt)) as (p' & E).
  { destruct M as (I & _). destruct o; cbn [accepted FileModel.pstep] in *; try tauto; subst.
    - unfold ext_read_struct. rewrite A. destruct (struct_there c_struct_file p I) as (p' & ->). cbn; eauto.
    - unfold ext_read_struct_string. destruct (struct_there c_struct p I) as (p' & ->). cbn; eauto.
    - unfold ext_read_struct_string. destruct (struct_there c_struct p I) as (p' & ->). cbn; eauto.
    - unfold ext_read_data. rewrite A. destruct (data_there c_data f p I) as (p' & ->). cbn; eauto.
    - unfold ext_read_data_string. destruct (data_there c_data (chars "string") p I) as (p' & ->). cbn; eauto.
    - unfold ext_alloc. destruct A as (A1 & A2 & A3 & A4). destruct (SessProof2.alloc_new _ _ _ _ _ _ I A1 A2 A3 A4) as (s' & q & E & _). rewrite E. eauto.
    - eauto. }
  exists p'. split; auto. exact (step_matches look mks mkd fuel fs o p sh p' _ M E).
Qed.
Lemma run_there l : Forall (fun c => accepted (fst c) (snd c)) l -> forall p sh, matches sh p -> exists p', prun l p = Some (p', map (fun _ => true) l).
Proof.
  induction 1 as [|[fs o] l A F IH]; intros p sh M; cbn [FileModel.prun map]. eauto.
  destruct (step_there fs o p sh M A) as (q & E & M'). rewrite E. destruct (IH q _ M') as (p' & R). rewrite R. cbn. eauto.
Qed.
Lemma reach_there l : Forall (fun c => accepted (fst c) (snd c)) l -> exists p, reached l (map (fun _ => true) l) p.
Proof. intros F. destruct (run_there l F pf_new _ new_matches) as (p & E). exists p. exact E. Qed.

(** a directory with a structure and a data set *)
Definition here : files := put (put (fun _ => None) (chars "Ni.stru") s_text) (chars "Ni.gr") d_text.
Definition empty : files := fun _ => None.
Definition a_session : list (files * pop) :=
  [(here, PStruct (chars "Ni.stru")); (here, PData (chars "Ni.gr")); (empty, PDataString d_text (chars "mine")); (empty, PAlloc 0 0 0 1 2)].
Lemma here_stru : here (chars "Ni.stru") = Some s_text.
Proof. unfold here, put. change (DataModel.text_eqb (chars "Ni.stru") (chars "Ni.gr")) with false. change (DataModel.text_eqb (chars "Ni.stru") (chars "Ni.stru")) with true. reflexivity. Qed.
Lemma here_data : here (chars "Ni.gr") = Some d_text.
Proof. unfold here, put. change (DataModel.text_eqb (chars "Ni.gr") (chars "Ni.gr")) with true. reflexivity. Qed.
Lemma a_session_ok : Forall (fun c => accepted (fst c) (snd c)) a_session.
Proof.
  unfold a_session. constructor. exact here_stru. constructor. exact here_data. constructor. reflexivity.
  constructor. cbn. unfold SessSpec.alloc_args. split; [lra|]. split; [lia|]. lra. constructor.
Qed.
Lemma prun_app l1 : forall l2 p, prun (l1 ++ l2) p = match prun l1 p with Some (q, o1) => option_map (fun r => (fst r, o1 ++ snd r)) (prun l2 q) | None => None end.
Proof.
  induction l1 as [|[fs o] l1 IH]; intros l2 p; cbn [app FileModel.prun].
  - destruct (prun l2 p) as [[q x]|]; reflexivity.
  - destruct (pstep fs o p) as [q r]. destruct r; auto; rewrite IH; destruct (prun l1 q) as [[q1 o1]|]; auto; cbn; destruct (prun l2 q1) as [[q2 o2]|]; auto.
Qed.
(** then a structure is read whose file is not there *)
Lemma session_case : exists p, reached (a_session ++ [(empty, PStruct (chars "Ni.stru"))]) [true; true; true; true; false] p.
Proof.
  destruct (reach_there a_session a_session_ok) as (p & R). exists p. unfold FileSpec.reached in *. rewrite prun_app, R.
  cbn [FileModel.prun]. rewrite (proj1 (no_file look mks mkd fuel empty (chars "Ni.stru") p eq_refl)). reflexivity.
Qed.
Lemma failed_case : exists l oks p p', reached l oks p /\ loading (PStruct (chars "Ni.stru")) /\ pstep empty (PStruct (chars "Ni.stru")) p = (p', PExc XIO) /\ l = a_session.
Proof.
  destruct (reach_there a_session a_session_ok) as (p & R). exists a_session, [true; true; true; true], p, p. repeat split; auto.
Qed.

(** * the lists and the engine can differ *)
Lemma no_label : exists l oks p, reached l oks p /\ length (pf_data p) <> length (SessModel.s_sets (pf_ses p)).
Proof.
  destruct (reach_there [(empty, PAlloc 0 0 0 1 2)]) as (p & R).
  { constructor; [|constructor]. cbn. unfold SessSpec.alloc_args. split; [lra|]. split; [lia|]. lra. }
  destruct (lists_kept _ _ _ _ _ _ _ R) as (_ & K). cbn in K. destruct K as (_ & K2 & _ & _ & K5 & _). exists [(empty, PAlloc 0 0 0 1 2)], [true], p. split; auto. rewrite K2, K5. discriminate.
Qed.
Lemma wrong_label : exists t n p, reached [(empty, PDataString t n)] [true] p /\ pf_data p = [t] /\ pf_names p = [chars "string"] /\ n <> t /\ n <> chars "string".
Proof.
  destruct (reach_there [(empty, PDataString d_text (chars "mine"))]) as (p & R).
  { constructor; [|constructor]. reflexivity. }
  destruct (lists_kept _ _ _ _ _ _ _ R) as (_ & K). cbn [combine map snd fold_left shelve app fst labels flat_map] in K. destruct K as (_ & K2 & K3 & _).
  exists d_text, (chars "mine"), p. split; auto. split; auto. split; auto. split; discriminate.
Qed.
End Calls.

(** * a full disk *)
Lemma cut_off : exists can room phases ip f fs t,
  snd (save_struct can room phases ip f fs) = PVal t /\ fst (save_struct can room phases ip f fs) f <> Some t.
Proof.
  exists (fun _ => true), (fun _ => 0%nat), [StruEx.ex_p StruEx.n4], 1%Z, (chars "out"), (fun _ => None).
  exists (StruModel.save_struct (StruEx.ex_p StruEx.n4)).
  split. reflexivity. unfold save_struct. cbn [length Z.of_nat]. change ((1 <? 1)%Z || (1 <? 1)%Z) with false. cbn [orb fst ext_save PdfModel.rdz].
  change (Some [] <> Some (StruModel.save_struct (StruEx.ex_p StruEx.n4))). intros E. injection E as E. apply (f_equal (@hd_error _)) in E. discriminate.
Qed.
(** a good disk *)
Lemma saved_case : exists (can : text -> bool) (room : text -> nat) t fs', can (chars "out") = true /\
  save_struct can room [StruEx.ex_p StruEx.n4] 1 (chars "out") (fun _ => None) = (fs', PVal t) /\ fs' (chars "out") = Some t /\ t <> [].
Proof.
  set (t := StruModel.save_struct (StruEx.ex_p StruEx.n4)).
  exists (fun _ => true), (fun _ => length t), t, (put (fun _ => None) (chars "out") t). split; auto.
  assert (E : save_struct (fun _ => true) (fun _ => length t) [StruEx.ex_p StruEx.n4] 1 (chars "out") (fun _ => None) = (put (fun _ => None) (chars "out") (firstn (length t) t), PVal t)) by reflexivity.
  rewrite firstn_all in E. split. exact E. split. apply (proj1 (put_only _ _ _)).
  intros Z. apply (f_equal (@hd_error _)) in Z. discriminate.
Qed.
