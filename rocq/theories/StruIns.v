(** Blank lines and comments in the header. *)
From Coq Require Import Ascii String List Arith ZArith Reals Bool Lia Lra.
From Verif Require Import Base MathModel MetricModel MetricSpec MetricProof ParserModel ParserLex PdfModel PdfSpec PdfProof DataModel DataSpec DataProof ElementTable ScatModel ScatSpec ScatProof FmtModel FmtSpec FmtProof FmtGen StruModel StruSpec StruLex StruHead.
Import ListNotations.
Local Open Scope R_scope.

(** * fuel *)
Lemma split_none t : split_at newline t = None -> one_line t.
Proof.
  induction t as [|c t IH]; cbn [split_at]; intros H; [intros []|]. destruct (Ascii.eqb_spec c newline) as [->|N]; [discriminate|].
  destruct (split_at newline t) as [[a b]|]; [discriminate|]. intros [Q|Q]; [congruence|]. apply IH; auto.
Qed.
Lemma split_some t l r : split_at newline t = Some (l, r) -> t = l ++ newline :: r /\ one_line l.
Proof.
  revert l r. induction t as [|c t IH]; cbn [split_at]; intros l r H; [discriminate|]. destruct (Ascii.eqb_spec c newline) as [->|N].
  - injection H as <- <-. split; auto. intros [].
  - destruct (split_at newline t) as [[a b]|]; [|discriminate]. injection H as <- <-. destruct (IH _ _ eq_refl) as [-> O]. split; auto.
    intros [Q|Q]; [congruence|]. auto.
Qed.
Lemma header_eof f x h : read_header (S f) (mkStr [] true) x h = Ok (h, mkStr [] true).
Proof. reflexivity. Qed.
Lemma getline_last t x : one_line t -> t <> [] -> getline (mkStr t false) x = (t, mkStr [] true, true).
Proof.
  intros O N. unfold getline. cbn [st_eof st_rest]. destruct (split_at newline t) as [[a b]|] eqn:E.
  - apply split_some in E. destruct E as [-> _]. elim O. apply in_or_app; right; left; auto.
  - destruct t; auto; congruence.
Qed.
Lemma getline_nil x : getline (mkStr [] false) x = ([], mkStr [] true, false).
Proof. reflexivity. Qed.
Lemma fuel_indep n : forall t, (length t <= n)%nat -> forall f g x y h, (S (length t) < f)%nat -> (S (length t) < g)%nat ->
  read_header f (mkStr t false) x h = read_header g (mkStr t false) y h.
Proof.
  induction n as [|n IH]; intros t L f g x y h Hf Hg; (destruct f; [lia|]); (destruct g; [lia|]); cbn [read_header].
  - destruct t; [|cbn in L; lia]. reflexivity.
  - destruct (split_at newline t) as [[l r]|] eqn:E.
    + apply split_some in E. destruct E as [-> O]. rewrite !getline_line by auto. cbn [negb]. destruct (header_line h l) as [[h'|]| | |]; cbn [obind]; auto.
      rewrite app_length in *. cbn [length] in *. apply IH; lia.
    + apply split_none in E. destruct t as [|c t]. reflexivity. rewrite !getline_last by (auto; discriminate). cbn [negb].
      destruct (header_line h (c :: t)) as [[h'|]| | |]; cbn [obind]; auto. destruct f; [cbn in Hf; lia|]. destruct g; [cbn in Hg; lia|]. reflexivity.
Qed.
Lemma left_length n : forall t, (length t <= n)%nat -> forall f x h h' s, read_header f (mkStr t false) x h = Ok (h', s) -> (length (left_text s) <= length t)%nat.
Proof.
  induction n as [|n IH]; intros t L f x h h' s; (destruct f; [discriminate|]); cbn [read_header].
  - destruct t; [|cbn in L; lia]. intros H. injection H as _ <-. auto.
  - destruct (split_at newline t) as [[l r]|] eqn:E.
    + apply split_some in E. destruct E as [-> O]. rewrite !getline_line by auto. cbn [negb]. rewrite app_length in *. cbn [length] in *.
      destruct (header_line h l) as [[h1|]| | |]; cbn [obind]; try discriminate.
      * intros H. apply IH in H; lia.
      * intros H. injection H as _ <-. cbn. lia.
    + apply split_none in E. destruct t as [|c t]. intros H. injection H as _ <-; auto. rewrite !getline_last by (auto; discriminate). cbn [negb].
      destruct (header_line h (c :: t)) as [[h1|]| | |]; cbn [obind]; try discriminate.
      * destruct f; [discriminate|]. cbn. intros H. injection H as _ <-. cbn. lia.
      * intros H. injection H as _ <-. cbn. lia.
Qed.
Lemma scan_dbl_length l d r : scan_dbl l = Some (d, r) -> (length r < length l)%nat.
Proof.
  unfold scan_dbl. destruct (skipws_suffix l) as [w E]. destruct (sign_split (skipws l)) as [n m] eqn:E1. apply sign_split_suffix in E1 as [w2 E2].
  destruct (scan_float m) as [[[k e] q]|] eqn:E3; [|discriminate]. apply scan_float_rest in E3. intros H. injection H as _ <-.
  destruct E3 as (c & Ec & Nc & _). rewrite E, E2, Ec, !app_length. destruct c; [congruence|]. cbn [length]. lia.
Qed.
Lemma scan_dbls_length n : forall l v r, scan_dbls n l = Some (v, r) -> (length r <= length l)%nat.
Proof.
  induction n as [|n IH]; intros l v r; cbn [scan_dbls]. intros H; injection H as _ <-; auto.
  destruct (scan_dbl l) as [[d q]|] eqn:E; [|discriminate]. destruct (scan_dbls n q) as [[ds q']|] eqn:E2; [|discriminate]. intros H; injection H as _ <-.
  apply IH in E2. apply scan_dbl_length in E. lia.
Qed.
Lemma read_atom_length d l w v q : read_atom d l = Some (w, v, q) -> (length q < length l)%nat.
Proof.
  unfold read_atom. destruct (get_word l) as [[w' r]|] eqn:E; [|discriminate]. destruct (scan_dbls _ r) as [[v' q']|] eqn:E2; [|discriminate].
  intros H; injection H as -> -> ->. apply get_word_some in E. destruct E as (b & -> & _ & [N _] & _). apply scan_dbls_length in E2.
  rewrite !app_length. destruct w; [congruence|]. cbn [length]. lia.
Qed.
Lemma atoms_fuel n : forall l, (length l <= n)%nat -> forall f g d, (length l < f)%nat -> (length l < g)%nat -> read_atoms f d l = read_atoms g d l.
Proof.
  induction n as [|n IH]; intros l L f g d Hf Hg; (destruct f; [lia|]); (destruct g; [lia|]); cbn [read_atoms].
  - destruct l; [|cbn in L; lia]. reflexivity.
  - destruct (read_atom d l) as [[[w v] q]|] eqn:E; auto. apply read_atom_length in E. destruct (pt_lookup elements w); auto.
    rewrite (IH q ltac:(lia) f g d) by lia. auto.
Qed.

(** * the rest of the reading from a state *)
Definition goes_on (hs : hstate * stream) : outcome sphase :=
  obind (read_atoms (S (length (left_text (snd hs)))) (h_discus (fst hs)) (left_text (snd hs))) (fun ats => finish (set_atoms (h_ph (fst hs)) ats)).
Definition rs (t : text) (h : hstate) : outcome sphase :=
  obind (read_header (S (S (length t))) (mkStr t false) [] h) goes_on.
Lemma struct_rs t : read_struct t = rs t (mkHs [] true phase0).
Proof.
  rewrite read_split. unfold rs. destruct (read_header _ _ _ _) as [[h s]| | |] eqn:E; auto. cbn [obind]. unfold goes_on. cbn [fst snd].
  apply (left_length _ _ (le_n _)) in E. rewrite (atoms_fuel _ _ (le_n _) (S (length t)) (S (length (left_text s)))) by lia. auto.
Qed.
Lemma rs_nil h : rs [] h = goes_on (h, mkStr [] true).
Proof. reflexivity. Qed.
Lemma rs_line l r h : one_line l -> rs (l ++ newline :: r) h =
  obind (header_line h l) (fun o => match o with None => goes_on (h, mkStr r false) | Some h => rs r h end).
Proof.
  intros O. unfold rs. remember (S (length (l ++ newline :: r))) as n eqn:En. cbn [read_header]. rewrite getline_line by auto. cbn [negb].
  destruct (header_line h l) as [[h'|]| | |]; cbn [obind]; auto.
  rewrite (fuel_indep _ r (le_n _) n (S (S (length r))) l [] h'); auto. subst n. rewrite app_length. cbn [length]. lia.
Qed.
Lemma rs_last l h : one_line l -> l <> [] -> rs l h =
  obind (header_line h l) (fun o => match o with None => goes_on (h, mkStr [] true) | Some h => goes_on (h, mkStr [] true) end).
Proof.
  intros O N. unfold rs. cbn [read_header]. rewrite getline_last by auto. cbn [negb].
  destruct (header_line h l) as [[h'|]| | |]; cbn [obind]; auto.
Qed.

(** * the state after lines *)
Fixpoint hrun (ls : list text) (h : hstate) : outcome (option hstate) :=
  match ls with
  | [] => Ok (Some h)
  | l :: ls => obind (header_line h l) (fun o => match o with None => Ok None | Some h => hrun ls h end)
  end.
Lemma rs_lines ls : Forall one_line ls -> forall t h, (forall o, hrun ls h = Ok o -> o <> None) ->
  rs (lines_text ls ++ t) h = obind (hrun ls h) (fun o => match o with None => UB | Some h => rs t h end).
Proof.
  induction 1 as [|l ls O F IH]; intros t h N. reflexivity.
  rewrite lines_cons, <- app_assoc. cbn [app]. rewrite rs_line by auto. cbn [hrun] in *. destruct (header_line h l) as [[h'|]| | |]; cbn [obind] in *; auto.
  elim (N None); auto.
Qed.
Definition okcmd (h : hstate) : Prop := h_cmd h <> chars "atoms" /\ lstrip (sp_name (h_ph h)) = sp_name (h_ph h).
Lemma run_cmd cmd rest s h : run_keyword cmd rest s = Ok h -> h_cmd h = cmd.
Proof.
  unfold run_keyword. repeat (destruct (text_eqb cmd _); [|]); intros H; try (injection H as <-; reflexivity);
  match type of H with omap _ ?o = _ => destruct o; try discriminate; injection H as <-; reflexivity end.
Qed.
Lemma run_strip cmd rest s h : lstrip (sp_name (h_ph s)) = sp_name (h_ph s) -> run_keyword cmd rest s = Ok h -> lstrip (sp_name (h_ph h)) = sp_name (h_ph h).
Proof.
  intros N. unfold run_keyword. 
  destruct (text_eqb cmd (chars "format")); [intros H; injection H as <-; auto|].
  destruct (text_eqb cmd (chars "scale")); [unfold on_vals; destruct (dget _); intros H; try discriminate; injection H as <-; auto|].
  destruct (text_eqb cmd (chars "sharp")).
  { unfold read_sharp. destruct (dgets 3 _) as [[[|a [|b [|c [|]]]] r]|]; try discriminate. destruct (dget r) as [[v q]|]; intros H; injection H as <-; auto. }
  destruct (text_eqb cmd (chars "spcgr")); [destruct (get_word _) as [[w r]|]; intros H; injection H as <-; auto|].
  destruct (text_eqb cmd (chars "shape")).
  { unfold read_shape, on_vals. destruct (get_word _) as [[w r]|]; [|discriminate]. destruct (text_eqb w _).
    destruct (dget r); intros H; try discriminate; injection H as <-; auto. destruct (text_eqb w _); [|discriminate].
    destruct (dget r); intros H; try discriminate; injection H as <-; auto. }
  destruct (text_eqb cmd (chars "title")); [intros H; injection H as <-; cbn [h_ph sp_name set_name]; apply lstrip_idem|].
  destruct (text_eqb cmd (chars "cell")); [unfold on_vals; destruct (dgets _ _); intros H; try discriminate; injection H as <-; auto|].
  destruct (text_eqb cmd (chars "dcell")); [unfold on_vals; destruct (dgets _ _); intros H; try discriminate; injection H as <-; auto|].
  destruct (text_eqb cmd (chars "ncell")); [unfold on_vals; destruct (igets _ _); intros H; try discriminate; injection H as <-; auto|].
  intros H; injection H as <-; auto.
Qed.
Definition ok_or {A : Type} (o : outcome A) : Prop := match o with Ok _ => True | Err e => e = ErrStructure | _ => False end.
Lemma ok_or_map {A B} (f : A -> B) o : ok_or o -> ok_or (omap f o). Proof. destruct o; auto. Qed.
Lemma ok_or_vals {A} (o : option A) f : ok_or (on_vals o f). Proof. destruct o; simpl; auto. Qed.
Lemma ok_or_sharp p l : ok_or (read_sharp p l).
Proof. unfold read_sharp. destruct (dgets 3 l) as [[[|a [|b [|c [|]]]] r]|]; simpl; auto. destruct (dget r) as [[v q]|]; simpl; auto. Qed.
Lemma ok_or_shape p o : ok_or (read_shape p o).
Proof.
  unfold read_shape. destruct (get_word _) as [[w r]|]; [|reflexivity]. destruct (text_eqb w _); [apply ok_or_vals|]. destruct (text_eqb w _); [apply ok_or_vals|reflexivity].
Qed.
Lemma run_err cmd rest s : ok_or (run_keyword cmd rest s).
Proof.
  unfold run_keyword. repeat (destruct (text_eqb cmd _); [|]); try exact I; apply ok_or_map; auto using ok_or_vals, ok_or_sharp, ok_or_shape.
Qed.
Lemma line_err h l : ok_or (header_line h l).
Proof. unfold header_line. cbv zeta. destruct (text_eqb _ _); [exact I|]. destruct (hash_line _); [exact I|]. apply ok_or_map, run_err. Qed.
Lemma hrun_err ls : forall h, ok_or (hrun ls h).
Proof.
  induction ls as [|l ls IH]; intros h; cbn [hrun]. exact I. pose proof (line_err h l) as E. destruct (header_line h l) as [[h'|]| | |]; cbn [obind]; auto; exact I.
Qed.
Lemma line_none h l : header_line h l = Ok None -> (exists r, first_word l (chars "atoms") r) \/ (blanks l /\ h_cmd h = chars "atoms").
Proof.
  unfold header_line. destruct (get_word l) as [[w r]|] eqn:E; cbv zeta.
  - destruct (text_eqb w (chars "atoms")) eqn:Ea.
    + intros _. left. apply text_eqb_eq in Ea. subst w. exists r. apply get_word_some; auto.
    + destruct (hash_line w); [discriminate|]. destruct (run_keyword _ _ _); discriminate.
  - destruct (text_eqb (h_cmd h) (chars "atoms")) eqn:Ea.
    + intros _. right. apply text_eqb_eq in Ea. split; auto. apply get_word_none; auto.
    + destruct (hash_line _); [discriminate|]. destruct (run_keyword _ _ _); discriminate.
Qed.
(** the word a state remembers *)
Lemma line_cmd h l h' : header_line h l = Ok (Some h') -> h_cmd h' = match get_word l with Some (w, _) => w | None => h_cmd h end.
Proof.
  unfold header_line. cbv zeta. destruct (text_eqb _ _); [discriminate|]. destruct (hash_line _). intros H; injection H as <-; auto.
  destruct (run_keyword _ _ _) as [h1| | |] eqn:E; try discriminate. intros H. injection H as <-. apply run_cmd in E. auto.
Qed.
Lemma line_okcmd h l h' : okcmd h -> header_line h l = Ok (Some h') -> okcmd h'.
Proof.
  intros [A B] H. split.
  - rewrite (line_cmd _ _ _ H). destruct (get_word l) as [[w r]|] eqn:E; auto. intros ->. apply get_word_some in E. rewrite (atoms_line _ _ _ E) in H. discriminate.
  - revert H. unfold header_line. cbv zeta. destruct (text_eqb _ _); [discriminate|]. destruct (hash_line _). intros H; injection H as <-; auto.
    destruct (run_keyword _ _ _) as [h1| | |] eqn:E; try discriminate. intros H. injection H as <-. eapply run_strip; eauto.
Qed.
Lemma hrun_some ls : (forall l r, In l ls -> ~ first_word l (chars "atoms") r) -> forall h o, okcmd h -> hrun ls h = Ok o ->
  exists h', o = Some h' /\ okcmd h'.
Proof.
  induction ls as [|l ls IH]; intros N h o K; cbn [hrun]. intros H. injection H as <-. eauto.
  destruct (header_line h l) as [[h'|]| | |] eqn:E; cbn [obind]; try discriminate.
  - intros H. apply (IH (fun l r I => N l r (or_intror I)) h'); auto. eapply line_okcmd; eauto.
  - apply line_none in E. destruct E as [[r E]|[_ E]]. elim (N l r); auto. left; auto. destruct K; congruence.
Qed.
Lemma hrun_app a b : forall h, hrun (a ++ b) h = obind (hrun a h) (fun o => match o with None => Ok None | Some h => hrun b h end).
Proof.
  induction a as [|l a IH]; intros h; cbn [app hrun]. reflexivity. destruct (header_line h l) as [[h'|]| | |]; cbn [obind]; auto.
Qed.
Lemma blank_cmd ls : Forall blanks ls -> forall h h', hrun ls h = Ok (Some h') -> h_cmd h' = h_cmd h.
Proof.
  induction 1 as [|l ls B F IH]; intros h h'; cbn [hrun]. intros H; injection H as <-; auto.
  destruct (header_line h l) as [[h1|]| | |] eqn:E; cbn [obind]; try discriminate. intros H. rewrite (IH _ _ H). rewrite (line_cmd _ _ _ E). rewrite get_word_blanks; auto.
Qed.
Lemma last_cmd ls w : last_word ls w -> forall h h', hrun ls h = Ok (Some h') -> h_cmd h' = w.
Proof.
  intros (a & l & r & b & -> & F & B) h h'. rewrite hrun_app. destruct (hrun a h) as [[h1|]| | |]; cbn [obind hrun]; try discriminate.
  destruct (header_line h1 l) as [[h2|]| | |] eqn:E; cbn [obind]; try discriminate. intros H. rewrite (blank_cmd _ B _ _ H), (line_cmd _ _ _ E), (get_word_first _ _ _ F). auto.
Qed.
Definition h0 : hstate := mkHs [] true phase0.
Lemma ok0 : okcmd h0. Proof. split; [discriminate|reflexivity]. Qed.
Lemma struct_lines ls t : in_header ls -> read_struct (lines_text ls ++ t) = obind (hrun ls h0) (fun o => match o with None => UB | Some h => rs t h end).
Proof.
  intros [O N]. rewrite struct_rs. apply rs_lines; auto. intros o H. destruct (hrun_some _ N _ _ ok0 H) as (h & -> & _). discriminate.
Qed.
(** what a state does with a text that starts with a word, or with none *)
Lemma rs_cmd t c d p c' : t = [] \/ word_next t -> rs t (mkHs c d p) = rs t (mkHs c' d p).
Proof.
  intros [-> | (b & x & r & -> & B & O & X)]; [reflexivity|].
  assert (forall q, get_word (b ++ x :: q) <> None) as G.
  { intros q H. apply get_word_none in H. apply Forall_app in H. destruct H as [_ H]. inversion H; congruence. }
  assert (forall c1 c2 q, exists o : outcome (option hstate), forall k, k = c1 \/ k = c2 -> header_line (mkHs k d p) (b ++ x :: q) = o) as HL.
  { intros c1 c2 q. exists (header_line (mkHs c1 d p) (b ++ x :: q)). intros k _. unfold header_line. specialize (G q).
    destruct (get_word (b ++ x :: q)) as [[w q']|]; [|congruence]. reflexivity. }
  assert (x <> newline) as Nx by (intros ->; discriminate X).
  destruct (split_at newline (b ++ x :: r)) as [[l q]|] eqn:E.
  - apply split_some in E. destruct E as [E O1].
    assert (exists y, l = b ++ x :: y) as (y & ->).
    { clear - E O Nx. revert l E. induction b as [|c b IH]; intros l E; destruct l as [|z l]; cbn [app] in *.
      injection E as E _; congruence. injection E as <- _. eauto. injection E as E _. elim O; left; auto.
      injection E as <- E. destruct (IH (fun I => O (or_intror I)) l E) as (y & ->). eauto. }
    rewrite E, !rs_line by auto. destruct (HL c c' y) as (o & Ho). rewrite !Ho by auto. destruct o as [[h|]| | |]; reflexivity.
  - apply split_none in E. rewrite !rs_last by (auto; destruct b; discriminate). destruct (HL c c' r) as (o & Ho). rewrite !Ho by auto. destruct o as [[h|]| | |]; reflexivity.
Qed.

(** * inserted lines *)
(** a blank line is harmless where the remembered word does nothing without values *)
Lemma blank_line l h : okcmd h -> blanks l ->
  header_line h l = if hash_line (h_cmd h) then Ok (Some h) else omap Some (run_keyword (h_cmd h) None h).
Proof.
  intros [K _] B. unfold header_line. rewrite (get_word_blanks l B). cbv zeta. rewrite (eqb_ne _ _ K). destruct h; reflexivity.
Qed.
Lemma in_app ls l : in_header ls -> one_line l -> (forall r, ~ first_word l (chars "atoms") r) -> in_header (ls ++ [l]).
Proof.
  intros [O N] Ol Nl. split. apply Forall_app; auto. intros l1 r I. apply in_app_or in I. destruct I as [I|[<-|[]]]; auto.
Qed.
Lemma blank_no_atoms l r : blanks l -> ~ first_word l (chars "atoms") r.
Proof. intros B F. apply first_word_blank in F. auto. Qed.
Lemma struct_insert ls l t : in_header ls -> one_line l -> (forall r, ~ first_word l (chars "atoms") r) ->
  (forall h, okcmd h -> (forall w, last_word ls w -> h_cmd h = w) -> (Forall blanks ls -> h = h0) -> exists h', header_line h l = Ok (Some h') /\ rs t h' = rs t h) ->
  read_struct (lines_text (ls ++ [l]) ++ t) = read_struct (lines_text ls ++ t).
Proof.
  intros H Ol Nl S. rewrite !struct_lines by auto using in_app. rewrite hrun_app. destruct (hrun ls h0) as [o| | |] eqn:E; cbn [obind]; auto.
  destruct (hrun_some _ (proj2 H) _ _ ok0 E) as (h & -> & K). cbn [hrun].
  destruct (S h K) as (h' & -> & R); auto. intros w L. eapply last_cmd; eauto.
  { intros B. clear - E B. revert E. assert (forall ls h, Forall blanks ls -> h_cmd h = [] -> hrun ls h = Ok (Some h)) as Q.
    { clear. induction 1 as [|l ls B F IH]; intros Hc; cbn [hrun]; auto. unfold header_line. rewrite (get_word_blanks l B). rewrite Hc. cbn [obind].
      destruct h as [c d p]. cbn in Hc; subst c. cbn [obind omap]. exact (IH eq_refl). }
    rewrite Q; auto. intros E. injection E as <-. auto. }
Qed.
Lemma run_nothing w h : okcmd h -> h_cmd h = w -> ~ In w (chars "format" :: with_values) -> run_keyword w None h = Ok h.
Proof.
  intros [K1 K2] E N. unfold run_keyword. cbn [rest_text rest_of_line].
  rewrite (eqb_ne w (chars "format")) by (intros ->; apply N; cbn; auto).
  rewrite (eqb_ne w (chars "scale")) by (intros ->; apply N; cbn; auto).
  rewrite (eqb_ne w (chars "sharp")) by (intros ->; apply N; cbn; auto).
  rewrite (eqb_ne w (chars "shape")) by (intros ->; apply N; cbn; auto).
  rewrite (eqb_ne w (chars "cell")) by (intros ->; apply N; cbn; tauto).
  rewrite (eqb_ne w (chars "dcell")) by (intros ->; apply N; cbn; tauto).
  rewrite (eqb_ne w (chars "ncell")) by (intros ->; apply N; cbn; tauto).
  destruct h as [c d p]. cbn [h_cmd h_discus h_ph] in *. subst c. destruct (text_eqb w (chars "spcgr")); [reflexivity|].
  destruct (text_eqb w (chars "title")); [|reflexivity]. rewrite K2. destruct p; reflexivity.
Qed.
Lemma blank_harmless ls l t : in_header ls -> one_line l -> blanks l ->
  (Forall blanks ls \/ exists w, last_word ls w /\ ~ In w (chars "format" :: with_values)) ->
  read_struct (lines_text (ls ++ [l]) ++ t) = read_struct (lines_text ls ++ t).
Proof.
  intros H Ol B C. apply struct_insert; auto. intros r; apply blank_no_atoms; auto.
  intros h K Lw Z. exists h. split; auto. rewrite blank_line by auto. destruct (hash_line (h_cmd h)); auto.
  destruct C as [C|(w & L & N)].
  - rewrite Z by auto. reflexivity.
  - rewrite (Lw w L). rewrite run_nothing; auto.
Qed.
Lemma struct_err ls t : in_header ls -> (forall h, okcmd h -> hrun ls h0 <> Ok (Some h)) -> read_struct (lines_text ls ++ t) = Err ErrStructure.
Proof.
  intros H N. rewrite struct_lines by auto. pose proof (hrun_err ls h0) as E. destruct (hrun ls h0) as [o|e| |] eqn:Q; cbn in E; try tauto.
  - destruct (hrun_some _ (proj2 H) _ _ ok0 Q) as (h & -> & K). elim (N h); auto.
  - subst e; auto.
Qed.
Lemma run_values w h : In w with_values -> run_keyword w None h = Err ErrStructure.
Proof. intros H. cbn in H. repeat (destruct H as [<-|H]; [reflexivity|]). tauto. Qed.
Lemma blank_error ls l t w : in_header ls -> one_line l -> blanks l -> last_word ls w -> In w with_values ->
  read_struct (lines_text (ls ++ [l]) ++ t) = Err ErrStructure.
Proof.
  intros H Ol B L I. apply struct_err. apply in_app; auto. intros r; apply blank_no_atoms; auto.
  intros h' K'. rewrite hrun_app. destruct (hrun ls h0) as [o|e| |] eqn:Q; cbn [obind]; try discriminate.
  destruct (hrun_some _ (proj2 H) _ _ ok0 Q) as (h & -> & K). cbn [hrun]. rewrite blank_line by auto. rewrite (last_cmd _ _ L _ _ Q).
  assert (hash_line w = false) as -> by (cbn in I; repeat (destruct I as [<-|I]; [reflexivity|]); tauto).
  rewrite run_values by auto. discriminate.
Qed.
Lemma blank_format ls l t : in_header ls -> one_line l -> blanks l -> last_word ls (chars "format") ->
  read_struct (lines_text (ls ++ [l]) ++ t) = read_struct (lines_text (ls ++ [chars "format"]) ++ t).
Proof.
  intros H Ol B L.
  assert (one_line (chars "format") /\ forall r, ~ first_word (chars "format") (chars "atoms") r) as [Of Nf].
  { split. unfold one_line, newline; cbn. intros Q; repeat (destruct Q as [Q|Q]; [discriminate Q|]); exact Q. intros r F. apply get_word_first in F. cbv in F. discriminate. }
  rewrite !struct_lines. 2:{ apply in_app; auto. } 2:{ apply in_app; auto. intros r; apply blank_no_atoms; auto. }
  rewrite !hrun_app. destruct (hrun ls h0) as [o|e| |] eqn:Q; cbn [obind]; auto.
  destruct (hrun_some _ (proj2 H) _ _ ok0 Q) as (h & -> & K). cbn [hrun]. rewrite blank_line by auto. rewrite (last_cmd _ _ L _ _ Q).
  reflexivity.
Qed.
Lemma comment_line x h : comment x -> exists w, header_line h x = Ok (Some (mkHs ("#"%char :: w) (h_discus h) (h_ph h))).
Proof.
  intros (w & r & F). exists w. unfold header_line. rewrite (get_word_first _ _ _ F). reflexivity.
Qed.
Lemma comment_blanks bs : Forall blanks bs -> forall h w, h_cmd h = "#"%char :: w -> hrun bs h = Ok (Some h).
Proof.
  induction 1 as [|l ls B F IH]; intros h w E; cbn [hrun]; auto. unfold header_line. rewrite (get_word_blanks l B). rewrite E. destruct h as [c d p]. cbn in E. subst c.
  cbn [obind]. exact (IH (mkHs ("#"%char :: w) d p) w eq_refl).
Qed.
Lemma in_app2 ls l : in_header ls -> in_header l -> in_header (ls ++ l).
Proof. intros [A B] [C D]. split. apply Forall_app; auto. intros l1 r I. apply in_app_or in I. destruct I; auto. Qed.
Lemma comment_harmless ls x bs t : in_header ls -> one_line x -> comment x -> Forall one_line bs -> Forall blanks bs -> t = [] \/ word_next t ->
  read_struct (lines_text (ls ++ x :: bs) ++ t) = read_struct (lines_text ls ++ t).
Proof.
  intros H Ox C Ob B T. rewrite !struct_lines; auto.
  2:{ apply in_app2; auto. split. constructor; auto. intros l r [<-|I] F. destruct C as (w & q & F'). apply (first_word_fun _ _ _ _ _ F') in F. destruct F as [F _]; discriminate F.
      rewrite Forall_forall in B. apply (blank_no_atoms l r); auto. }
  rewrite hrun_app. destruct (hrun ls h0) as [o|e| |] eqn:Q; cbn [obind]; auto.
  destruct (hrun_some _ (proj2 H) _ _ ok0 Q) as (h & -> & K). cbn [hrun]. destruct (comment_line x h C) as (w & ->). cbn [obind].
  rewrite (comment_blanks bs B _ w) by reflexivity. cbn [obind]. destruct h as [c d p]. apply rs_cmd; auto.
Qed.
