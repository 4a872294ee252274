(** * C92: what the README promises about words in processed text. *)
From Verif Require Import PropProcessing.
From Verif Require Import Base BaseLemmas Utf8 SamplerModel ProcessingModel TokenSetModel TokenizerModel TokSpec PropTokenizer.

(** ** Specification *)
Definition word (U : unicode) (w : text) : Prop := w <> [] /\ Forall (fun c => alphabetic U c = true) w.
(** no letter next to the word *)
Definition ends_word (U : unicode) (t : text) : Prop := forall c t', t = t' ++ [c] -> alphabetic U c = false.
Definition starts_no_letter (U : unicode) (t : text) : Prop := forall c t', t = c :: t' -> alphabetic U c = false.
(** words separated by single spaces *)
Fixpoint sentence (ws : list text) : text :=
  match ws with
  | [] => []
  | [w] => w
  | w :: r => w ++ [space] ++ sentence r
  end.

Section Words.
Variable U : unicode.
Hypothesis Hok : table_ok U.
Local Notation run t s := (mfold (process_step U) t s).

Lemma process_word w : word U w -> process U w = Ret (marked U w).
Proof.
  intros [Hw Hl]. unfold process. rewrite run_word by assumption. cbn [bind process_end]. rewrite add_word_spec by assumption. reflexivity.
Qed.

(** What was written before does not matter. *)
Definition put_before (a : text) (o : outcome (text * text * pstate)) : outcome (text * text * pstate) :=
  match o with Ret (out, w, st) => Ret (a ++ out, w, st) | Panic => Panic | OutOfFuel => OutOfFuel end.

Lemma add_word_before a out w : add_word U (a ++ out) w = match add_word U out w with Ret o => Ret (a ++ o) | Panic => Panic | OutOfFuel => OutOfFuel end.
Proof.
  destruct w as [|c r]; [reflexivity|]. rewrite !add_word_spec by (assumption || discriminate). rewrite app_assoc. reflexivity.
Qed.

Lemma step_before a out w st c : process_step U (a ++ out, w, st) c = put_before a (process_step U (out, w, st) c).
Proof.
  unfold process_step. destruct st, (get_char_type U c); cbn [put_before]; rewrite <- ?app_assoc; try reflexivity;
    rewrite add_word_before; destruct (add_word U out w); cbn [bind put_before]; rewrite <- ?app_assoc; reflexivity.
Qed.

Lemma run_before t : forall a out w st, run t (a ++ out, w, st) = put_before a (run t (out, w, st)).
Proof.
  induction t as [|c t IH]; intros a out w st; [reflexivity|]. cbn [mfold]. rewrite step_before.
  destruct (process_step U (out, w, st) c) as [[[o w'] st']| |]; cbn [put_before bind]; [apply IH|reflexivity|reflexivity].
Qed.

Lemma end_before a s : process_end U (a ++ fst (fst s), snd (fst s), snd s) =
  match process_end U s with Ret o => Ret (a ++ o) | Panic => Panic | OutOfFuel => OutOfFuel end.
Proof.
  destruct s as [[out w] st]. cbn [fst snd]. unfold process_end. destruct st; [apply add_word_before|rewrite app_assoc; reflexivity|reflexivity].
Qed.

(** The words in progress are never lost, and the run never fails. *)
Lemma step_ok out w st c : (st = Word <-> w <> []) -> exists out' w' st', process_step U (out, w, st) c = Ret (out', w', st') /\
  (st' = Word <-> w' <> []) /\ (alphabetic U c = false -> st' <> Word /\ w' = []).
Proof.
  intros H. unfold process_step. destruct (get_char_type U c) eqn:Ec;
  (assert (Ha : alphabetic U c = match get_char_type U c with Letter => true | _ => false end) by
    (unfold get_char_type; destruct (alphabetic U c); [reflexivity|]; destruct (bstr_eqb c space); reflexivity)); rewrite Ec in Ha; rewrite Ha.
  - destruct st.
    + exists out, (w ++ [c]), Word. split; [reflexivity|]. split; [|discriminate]. split; intros _; [destruct w; discriminate|reflexivity].
    + exists out, (w ++ [c]), Word. split; [reflexivity|]. split; [|discriminate]. split; intros _; [destruct w; discriminate|reflexivity].
    + exists out, (w ++ [c]), Word. split; [reflexivity|]. split; [|discriminate]. split; intros _; [destruct w; discriminate|reflexivity].
  - assert (Hw : st <> Word -> w = []) by (intros Hs; destruct w; [reflexivity|]; exfalso; apply Hs, H; discriminate).
    destruct st.
    + rewrite add_word_spec; [|assumption|apply H; reflexivity]. cbn [bind]. eexists _, _, _. split; [reflexivity|]. split; [split; congruence|]. intros _. split; [discriminate|reflexivity].
    + rewrite Hw by discriminate. eexists _, _, _. split; [reflexivity|]. split; [split; congruence|]. intros _. split; [discriminate|reflexivity].
    + rewrite Hw by discriminate. eexists _, _, _. split; [reflexivity|]. split; [split; congruence|]. intros _. split; [discriminate|reflexivity].
  - assert (Hw : st <> Word -> w = []) by (intros Hs; destruct w; [reflexivity|]; exfalso; apply Hs, H; discriminate).
    destruct st.
    + rewrite add_word_spec; [|assumption|apply H; reflexivity]. cbn [bind]. eexists _, _, _. split; [reflexivity|]. split; [split; congruence|]. intros _. split; [discriminate|reflexivity].
    + rewrite Hw by discriminate. eexists _, _, _. split; [reflexivity|]. split; [split; congruence|]. intros _. split; [discriminate|reflexivity].
    + rewrite Hw by discriminate. eexists _, _, _. split; [reflexivity|]. split; [split; congruence|]. intros _. split; [discriminate|reflexivity].
Qed.

Lemma run_ok t : forall out w st, (st = Word <-> w <> []) -> exists out' w' st', run t (out, w, st) = Ret (out', w', st') /\ (st' = Word <-> w' <> []).
Proof.
  induction t as [|c t IH]; intros out w st H; [exists out, w, st; auto|]. cbn [mfold].
  destruct (step_ok out w st c H) as (o & w1 & st1 & -> & H1 & _). cbn [bind]. apply IH, H1.
Qed.

Lemma run_between t : ends_word U t -> exists out st, run t ([], [], NonWord) = Ret (out, [], st) /\ st <> Word.
Proof.
  intros He. destruct t as [|c t _] using rev_ind; [exists [], NonWord; split; [reflexivity|discriminate]|].
  rewrite mfold_app. destruct (run_ok t [] [] NonWord) as (o & w & st & -> & H); [split; congruence|]. cbn [bind mfold].
  destruct (step_ok o w st c H) as (o' & w' & st' & E & _ & Hc). destruct (Hc (He c t eq_refl)) as (Hs & ->). rewrite E. exists o', st'. auto.
Qed.

Lemma run_end_ok t out w st : (st = Word <-> w <> []) -> exists o, (s <- run t (out, w, st) ;; process_end U s) = Ret o.
Proof.
  intros H. destruct (run_ok t out w st H) as (o & w' & st' & -> & H'). cbn [bind process_end].
  destruct st'; [rewrite add_word_spec; [eauto|assumption|apply H'; reflexivity]|eauto|eauto].
Qed.

Lemma local before after : ends_word U before -> starts_no_letter U after ->
  exists A B, forall w, word U w -> process U (before ++ w ++ after) = Ret (A ++ marked U w ++ B).
Proof.
  intros Hb Ha. destruct (run_between before Hb) as (A & st & EA & Hst). exists A.
  assert (G : exists B, forall w, word U w -> (s <- run after (A, w, Word) ;; process_end U s) = Ret (A ++ marked U w ++ B)).
  { destruct after as [|c after].
    - exists []. intros w [Hw _]. cbn [mfold bind process_end]. rewrite add_word_spec by assumption. rewrite app_nil_r. reflexivity.
    - pose proof (Ha c after eq_refl) as Hc. destruct (space_dec c) as [->|Hs].
      + destruct (run_end_ok after [] [] SpaceAfterWord) as (B & EB); [split; congruence|]. exists B. intros w [Hw _]. cbn [mfold]. unfold process_step at 1.
        rewrite (get_space U Hok), add_word_spec by assumption. cbn [bind]. rewrite <- (app_nil_r (A ++ marked U w)), run_before.
        destruct (run after ([], [], SpaceAfterWord)) as [[[o w'] st']| |]; cbn [bind put_before] in EB |- *; try discriminate.
        change ((A ++ marked U w) ++ o, w', st') with ((A ++ marked U w) ++ fst (fst (o, w', st')), snd (fst (o, w', st')), snd (o, w', st')).
        rewrite end_before, EB, <- app_assoc. reflexivity.
      + destruct (run_end_ok after [c] [] NonWord) as (B & EB); [split; congruence|]. exists B. intros w [Hw _]. cbn [mfold]. unfold process_step at 1.
        rewrite (get_other U c Hc Hs), add_word_spec by assumption. cbn [bind]. rewrite run_before.
        destruct (run after ([c], [], NonWord)) as [[[o w'] st']| |]; cbn [bind put_before] in EB |- *; try discriminate.
        change ((A ++ marked U w) ++ o, w', st') with ((A ++ marked U w) ++ fst (fst (o, w', st')), snd (fst (o, w', st')), snd (o, w', st')).
        rewrite end_before, EB, <- app_assoc. reflexivity. }
  destruct G as (B & GB). exists B. intros w Hw. unfold process. rewrite mfold_app, EA. cbn [bind]. rewrite mfold_app, (run_word U w st (proj1 Hw) (proj2 Hw)). cbn [bind].
  apply GB, Hw.
Qed.

Lemma sentence_run ws : ws <> [] -> Forall (word U) ws -> forall out st, (st = NonWord \/ st = SpaceAfterWord) ->
  (s <- run (sentence ws) (out, [], st) ;; process_end U s) = Ret (out ++ concat (map (marked U) ws)).
Proof.
  intros Hn H. induction H as [|w ws Hw Hws IH]; [congruence|]. intros out st Hst. destruct ws as [|w2 ws].
  - cbn [sentence map concat]. rewrite (run_word U w st (proj1 Hw) (proj2 Hw)). cbn [bind process_end]. rewrite add_word_spec by (assumption || apply Hw).
    rewrite app_nil_r. reflexivity.
  - cbn [sentence map concat]. rewrite mfold_app, (run_word U w st (proj1 Hw) (proj2 Hw)). cbn [bind app mfold]. unfold process_step at 1.
    rewrite (get_space U Hok), add_word_spec by (assumption || apply Hw). cbn [bind]. rewrite IH; [|discriminate|right; reflexivity].
    cbn [map concat]. rewrite <- !app_assoc. reflexivity.
Qed.
End Words.

(** ** C92 *)

(** A word has the same form wherever it stands: what is around it determines the rest of the
    output, and the output of the word alone is inserted. *)
Theorem C92_same_form_everywhere : forall U before after, table_ok U -> ends_word U before -> starts_no_letter U after ->
  exists A B, forall w, word U w -> exists form, process U w = Ret form /\ process U (before ++ w ++ after) = Ret (A ++ form ++ B).
Proof.
  intros U before after Hok Hb Ha. destruct (local U Hok before after Hb Ha) as (A & B & H). exists A, B. intros w Hw. exists (marked U w).
  split; [apply process_word; assumption|apply H, Hw].
Qed.

(** Single spaces between words leave no trace: the forms of the words follow each other. *)
Theorem C92_spaces_vanish : forall U ws fs, table_ok U -> Forall2 (fun w f => word U w /\ process U w = Ret f) ws fs ->
  process U (sentence ws) = Ret (concat fs).
Proof.
  intros U ws fs Hok H. assert (E : fs = map (marked U) ws /\ Forall (word U) ws).
  { induction H as [|w f ws fs [Hw Hf] _ [-> IH]]; [split; [reflexivity|constructor]|]. split; [|constructor; assumption].
    rewrite process_word in Hf by assumption. injection Hf as <-. reflexivity. }
  destruct E as [-> Hw]. destruct ws as [|w ws]; [reflexivity|]. unfold process. rewrite (sentence_run U Hok) by (try discriminate; auto). reflexivity.
Qed.

(** A capitalized word is its small form behind a marker; so is a word in capitals. *)
Theorem C92_capitalized : forall U c l r, table_ok U -> word U (c :: r) -> word U (l :: r) ->
  uppercase U c = true -> Forall (fun x => lowercase U x = true) r -> lower_char U c = [l] -> uppercase U l = false ->
  exists form, process U (l :: r) = Ret form /\ process U (c :: r) = Ret (cap_mark :: form).
Proof.
  intros U c l r Hok Hw Hw2 Hc Hr Hl Hu. exists (marked U (l :: r)). rewrite !process_word by assumption. split; [reflexivity|]. f_equal.
  cbn [marked]. assert (E : forallb (lowercase U) r = true) by (apply forallb_forall; rewrite Forall_forall in Hr; exact Hr).
  rewrite Hc, Hu, E, Hl. reflexivity.
Qed.

Theorem C92_all_capitals : forall U w, table_ok U -> word U w -> word U (lower_str U w) ->
  Forall (fun x => uppercase U x = true) w -> (exists c d r, w = c :: d :: r /\ lowercase U d = false) ->
  (forall l r, lower_str U w = l :: r -> uppercase U l = false) ->
  exists form, process U (lower_str U w) = Ret form /\ process U w = Ret (caps_mark :: form).
Proof.
  intros U w Hok Hw Hw2 Hall (c & d & r & E & Hd) Hl. exists (marked U (lower_str U w)). rewrite !process_word by assumption. split; [reflexivity|]. f_equal.
  assert (E1 : marked U w = caps_mark :: lower_str U w ++ [end_mark]).
  { rewrite E in Hall |- *. cbn [marked]. inversion Hall as [|? ? H1 H2]; subst. rewrite H1. cbn [forallb andb]. rewrite Hd. cbn [andb].
    assert (E2 : uppercase U d && forallb (uppercase U) r = true).
    { inversion H2; subst. rewrite H3. cbn [andb]. apply forallb_forall. rewrite Forall_forall in H4. exact H4. }
    rewrite E2. reflexivity. }
  rewrite E1. destruct (lower_str U w) as [|l rest] eqn:El; [destruct Hw2; congruence|]. cbn [marked]. rewrite (Hl l rest eq_refl). reflexivity.
Qed.

(** One token per word: if every word, with its end marker, is a token, or its form behind the
    marker and the marker are tokens, a sentence is tokenized into at most one token per word, and
    one more for each marker. *)
Inductive word_cost (U : unicode) (ts : tokenset) : text -> nat -> Prop :=
| cost_plain w f : word U w -> process U w = Ret f -> In (Str (concat f)) (tokens ts) -> word_cost U ts w 1
| cost_marked w m f : word U w -> process U w = Ret (m :: f) -> In (Str m) (tokens ts) -> In (Str (concat f)) (tokens ts) -> word_cost U ts w 2.

Lemma token_piece ts s : In (Str s) (tokens ts) -> exists i, piece_string ts (PTok i) = Some s.
Proof. intros H. apply In_nth_error in H as (i & Hi). exists i. cbn [piece_string]. rewrite Hi. reflexivity. Qed.

Lemma segments_app ts p q a b : segments ts p a -> segments ts q b -> segments ts (p ++ q) (a ++ b).
Proof. induction 1 as [|x p s r Hx _ IH]; intros Hq; [exact Hq|]. rewrite <- app_assoc. cbn [app]. constructor; [exact Hx|apply IH, Hq]. Qed.

Theorem C92_one_token_per_word : forall U ts tk ws ns out s b s' b', table_ok U ->
  tokenizer_new ts = Ret tk -> seqs_in_range ts -> matches ts s ->
  Forall2 (word_cost U ts) ws ns -> process U (sentence ws) = Ret out ->
  process_slice tk (concat out) s b = Ret (s', b') ->
  total_tokens s' <= total_tokens s + list_sum ns.
Proof.
  intros U ts tk ws ns out s b s' b' Hok Htk Hr Hm Hc Ho Hp.
  assert (G : exists fs qs, Forall2 (fun w f => word U w /\ process U w = Ret f) ws fs /\ segments ts qs (concat (concat fs)) /\ length (stream ts qs) = list_sum ns).
  { clear - Hc. induction Hc as [|w n ws ns Hw _ IH]; [exists [], []; repeat split; constructor|].
    destruct IH as (fs & qs & F & Sg & L). destruct Hw as [w f Hw Hf Ht|w m f Hw Hf Hm Ht].
    - destruct (token_piece ts _ Ht) as (i & Hi). exists (f :: fs), (PTok i :: qs). split; [constructor; auto|]. split.
      + cbn [concat]. rewrite concat_app. constructor; assumption.
      + change (S (length (stream ts qs)) = S (list_sum ns)). congruence.
    - destruct (token_piece ts _ Ht) as (i & Hi). destruct (token_piece ts _ Hm) as (k & Hk).
      exists ((m :: f) :: fs), (PTok k :: PTok i :: qs). split; [constructor; auto|]. split.
      + cbn [concat]. rewrite concat_app. cbn [concat]. rewrite <- app_assoc. constructor; [exact Hk|]. constructor; assumption.
      + change (S (S (length (stream ts qs))) = S (S (list_sum ns))). congruence. }
  destruct G as (fs & qs & F & Sg & L). rewrite (C92_spaces_vanish U ws fs Hok F) in Ho. injection Ho as <-.
  destruct (C03_optimal ts tk _ s b s' b' Htk Hr Hm Hp) as [_ H]. rewrite <- L. apply H, Sg.
Qed.

(** ** Concrete cases *)
Definition txt (s : bstr) : text := map (fun b => [b]) s.

(** "Hi hi HI" with the tokens "hi" + end marker and the two markers: five tokens for three words. *)
Definition hi_set : tokenset := add_token_unchecked (add_token_unchecked (add_token_unchecked ex_set [x68; x69; x16]) [x14]) [x15].

Lemma tokens_added ts x : tokens (add_token_unchecked ts x) = tokens ts ++ [Str x].
Proof. reflexivity. Qed.

Lemma hi_set_tokens : forall x, In x [[x68; x69; x16]; [x14]; [x15]] -> In (Str x) (tokens hi_set).
Proof.
  unfold hi_set. generalize ex_set. intros e x Hx. rewrite !tokens_added, !in_app_iff. cbn [In] in *.
  destruct Hx as [<-|[<-|[<-|[]]]]; auto.
Qed.

Lemma hi_usable e : usable e -> TokenSetProof.str_tokens e = [[x61]; [x61; x62]; [x62; x63]] ->
  usable (add_token_unchecked (add_token_unchecked (add_token_unchecked e [x68; x69; x16]) [x14]) [x15]).
Proof.
  intros Hu Hs. apply TokenSetProof.usable_add; [apply TokenSetProof.usable_add; [apply TokenSetProof.usable_add|..]|..];
    try exact Hu; try discriminate; rewrite ?TokenSetProof.str_tokens_add, Hs; cbn; intuition discriminate.
Qed.

Example C92_example : let U := ascii_table in
  (exists tk, tokenizer_new hi_set = Ret tk) /\ seqs_in_range hi_set /\ matches hi_set (stats_new hi_set None) /\
  Forall2 (word_cost U hi_set) [txt [x48; x69]; txt [x68; x69]; txt [x48; x49]] [2; 1; 2] /\
  sentence [txt [x48; x69]; txt [x68; x69]; txt [x48; x49]] = txt [x48; x69; x20; x68; x69; x20; x48; x49] /\
  process U (txt [x48; x69; x20; x68; x69; x20; x48; x49]) = Ret (txt [x14; x68; x69; x16; x68; x69; x16; x15; x68; x69; x16]).
Proof.
  cbv zeta. destruct ex_set_ok as (Hu & Hr & Hn & Hs). pose proof hi_set_tokens as T.
  assert (W : forall a b, ascii_upper [a] || ascii_lower [a] = true -> ascii_upper [b] || ascii_lower [b] = true -> word ascii_table (txt [a; b])).
  { intros a b H1 H2. split; [discriminate|]. repeat constructor; assumption. }
  split; [|split; [|split; [|split; [|split]]]].
  - apply C01_tokenizer_exists_iff_usable. exact (hi_usable ex_set Hu Hs).
  - unfold hi_set. do 3 apply TokenSetProof.seqs_in_range_add. exact Hr.
  - apply TokenSetProof.matches_new.
  - constructor; [|constructor; [|constructor; [|constructor]]].
    + apply (cost_marked _ _ _ [x14] (txt [x68; x69; x16])); [apply W; reflexivity|reflexivity|apply T; cbn; auto|apply T; cbn; auto].
    + apply (cost_plain _ _ _ (txt [x68; x69; x16])); [apply W; reflexivity|reflexivity|apply T; cbn; auto].
    + apply (cost_marked _ _ _ [x15] (txt [x68; x69; x16])); [apply W; reflexivity|reflexivity|apply T; cbn; auto|apply T; cbn; auto].
  - reflexivity.
  - reflexivity.
Qed.

(** "(hi)" and "a hi, b": the surroundings of [C92_same_form_everywhere]. *)
Example C92_surroundings : let U := ascii_table in
  ends_word U (txt [x28]) /\ starts_no_letter U (txt [x29]) /\ ends_word U (txt [x61; x20]) /\ starts_no_letter U (txt [x2c; x20; x62]) /\
  ends_word U [] /\ starts_no_letter U [].
Proof.
  cbv zeta. assert (E : forall b t, ascii_upper b || ascii_lower b = false -> ends_word ascii_table (t ++ [b])).
  { intros b t Hb c t' H. apply app_inj_tail in H as [_ <-]. exact Hb. }
  assert (S : forall b t, ascii_upper b || ascii_lower b = false -> starts_no_letter ascii_table (b :: t)).
  { intros b t Hb c t' H. injection H as <- _. exact Hb. }
  split; [exact (E [x28] [] eq_refl)|]. split; [exact (S [x29] [] eq_refl)|]. split; [exact (E [x20] [[x61]] eq_refl)|].
  split; [exact (S [x2c] _ eq_refl)|]. split; [intros c t' H; destruct t'; discriminate H|]. intros c t' H; discriminate H.
Qed.
