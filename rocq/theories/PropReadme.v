(** * Property C94: decoding a processed text by the rules of the README. *)
From Verif Require Import PropProcessing.
From Verif Require Import Base BaseLemmas Utf8 SamplerModel PropSampler ProcessingModel.

(** ** Specification *)
(** README, "Processing": "When decoding, if end-of-word appears between two
    letters, it can be replaced by a space.  Otherwise it's dropped."
    [next_ok rest] says whether what follows counts as a letter. *)
Fixpoint decode_ends (U : unicode) (next_ok : text -> bool) (prev : bstr) (t : text) : text :=
  match t with
  | [] => []
  | c :: r =>
      (if bstr_eqb c end_mark then if alphabetic U prev && next_ok r then [space] else [] else [c])
      ++ decode_ends U next_ok c r
  end.

(** The rule as written: the character after the marker is a letter. *)
Definition next_is_letter (U : unicode) (r : text) : bool :=
  match r with c :: _ => alphabetic U c | [] => false end.

(** The rule with the other two markers taken as part of the word they stand
    before. *)
Definition next_starts_word (U : unicode) (r : text) : bool :=
  match r with
  | c :: r' => if bstr_eqb c cap_mark || bstr_eqb c caps_mark then next_is_letter U r' else alphabetic U c
  | [] => false
  end.

(** "The first capitalizes the first letter, the second capitalizes all
    letters" of the word that follows; [up] is the table of capitals. *)
Inductive cmode := Plain | First | All.
Fixpoint decode_case (U : unicode) (up : bstr -> bstr) (m : cmode) (t : text) : text :=
  match t with
  | [] => []
  | c :: r =>
      if bstr_eqb c cap_mark then decode_case U up First r
      else if bstr_eqb c caps_mark then decode_case U up All r
      else match m with
           | Plain => c :: decode_case U up Plain r
           | First => up c :: decode_case U up Plain r
           | All => if alphabetic U c then up c :: decode_case U up All r else c :: decode_case U up Plain r
           end
  end.

Definition decode (U : unicode) (up : bstr -> bstr) (next_ok : text -> bool) (t : text) : text :=
  decode_case U up Plain (decode_ends U next_ok newline t).

(** The words that get a marker in front: capitalized and all-capitals ones. *)
Definition in_capitals (U : unicode) (w : text) : bool :=
  match w with
  | [] => false
  | c :: r => uppercase U c && (forallb (lowercase U) r || forallb (uppercase U) r)
  end.

(** The text without the single spaces in front of such words. *)
Fixpoint squeezed (U : unicode) (l : list (text * text)) : text :=
  match l with
  | [] => []
  | [(w, s)] => w ++ s
  | (w, s) :: (((w2, _) :: _) as r) =>
      w ++ (if text_dec s [space] then if in_capitals U w2 then [] else [space] else s) ++ squeezed U r
  end.

(** Some word in capitals comes after another word and one space. *)
Inductive spaced_capitals (U : unicode) : list (text * text) -> Prop :=
| sc_here w w2 s2 r : in_capitals U w2 = true -> spaced_capitals U ((w, [space]) :: (w2, s2) :: r)
| sc_later p r : spaced_capitals U r -> spaced_capitals U (p :: r).

(** The small forms of capitals are letters. *)
Definition small_letters (U : unicode) (t : text) : Prop := forall c, In c t -> uppercase U c = true ->
  (forall x, In x (lower_char U c) -> alphabetic U x = true) /\
  (c = cap_sigma -> alphabetic U small_sigma = true /\ alphabetic U final_sigma = true).

(** ** Proofs *)
Section Readme.
Variable U : unicode.
Variable up : bstr -> bstr.
Hypothesis Hok : table_ok U.

(** The word with the marker before it, without the marker after it. *)
Definition body (w : text) : text :=
  match w with
  | [] => []
  | c :: r =>
      if uppercase U c && forallb (lowercase U) r then cap_mark :: firstn 1 (lower_char U c) ++ r
      else if uppercase U c && forallb (uppercase U) r then caps_mark :: lower_str U w
      else w
  end.

Lemma marked_body w : w <> [] -> marked U w = body w ++ [end_mark].
Proof. destruct w; [congruence|]. reflexivity. Qed.

Definition good (w : text) := w <> [] /\ letters U w /\ reversible_case U up w /\ small_letters U w.

Lemma not_mark c : alphabetic U c = true ->
  bstr_eqb c cap_mark = false /\ bstr_eqb c caps_mark = false /\ bstr_eqb c end_mark = false.
Proof. intros H. rewrite !(letter_not_mark U Hok) by (auto; cbn; auto). auto. Qed.

Lemma lowered_letters : forall w before, Forall (fun c => uppercase U c = true) w ->
  reversible_case U up w -> small_letters U w -> letters U (lower_from U before w).
Proof.
  induction w as [|c w IH]; intros before Hu Hr Hs; [constructor|].
  inversion Hu as [|? ? Hc Hw]; subst. cbn [lower_from]. apply Forall_app. split.
  - destruct (Hs c (or_introl eq_refl) Hc) as (H1 & H2).
    destruct (bstr_eqb_spec c cap_sigma) as [E|_].
    + destruct (H2 E). constructor; [|constructor]. destruct (_ && _); assumption.
    + apply Forall_forall. exact H1.
  - apply IH; [exact Hw| |]; intros x Hx; [apply Hr|apply Hs]; right; exact Hx.
Qed.

Lemma lower_from_ne : forall w before, w <> [] -> lower_from U before w <> [].
Proof.
  intros [|c w] before H; [congruence|]. cbn [lower_from]. intros E. apply app_eq_nil in E as (E & _).
  destruct (bstr_eqb c cap_sigma); [discriminate|]. exact (to_lower _ Hok c E).
Qed.

(** The shape of a body: a marker or nothing, then letters. *)
Lemma body_shape w : good w -> exists v, v <> [] /\ letters U v /\
  (in_capitals U w = false /\ body w = v \/
   in_capitals U w = true /\ (body w = cap_mark :: v \/ body w = caps_mark :: v)).
Proof.
  intros (Hw & Hl & Hr & Hs). destruct w as [|c r]; [congruence|]. unfold body, in_capitals.
  inversion Hl as [|? ? Hc Hrl]; subst.
  destruct (uppercase U c) eqn:Eu; cbn [andb]; [|exists (c :: r); split; [discriminate|]; split; auto].
  destruct (forallb (lowercase U) r); cbn [orb].
  - destruct (Hr c (or_introl eq_refl) Eu) as ((x & Ex & _) & _). exists (x :: r). rewrite Ex.
    split; [discriminate|]. split; [|right; auto].
    constructor; [|exact Hrl]. apply (Hs c (or_introl eq_refl) Eu). rewrite Ex. left; reflexivity.
  - destruct (forallb (uppercase U) r) eqn:Ef; [|exists (c :: r); split; [discriminate|]; split; auto].
    exists (lower_str U (c :: r)). split; [apply lower_from_ne; discriminate|]. split; [|right; auto].
    apply lowered_letters; auto. constructor; [exact Eu|]. apply Forall_forall.
    intros x Hx. exact (proj1 (forallb_forall _ _) Ef x Hx).
Qed.

Lemma ends_app nx : forall a p b, ~ In end_mark a ->
  decode_ends U nx p (a ++ b) = a ++ decode_ends U nx (last a p) b.
Proof.
  induction a as [|c a IH]; intros p b Hn; [reflexivity|]. cbn [app decode_ends].
  destruct (bstr_eqb_spec c end_mark) as [->|_]; [exfalso; apply Hn; left; reflexivity|].
  cbn [app]. f_equal. rewrite IH by (intros X; apply Hn; right; exact X). f_equal. f_equal.
  destruct a as [|d a]; [reflexivity|]. cbn [last]. clear. revert d. induction a as [|e a IH]; intros d; [reflexivity|].
  cbn [last] in *. apply IH.
Qed.

Lemma ends_id nx a p : ~ In end_mark a -> decode_ends U nx p a = a.
Proof. intros H. rewrite <- (app_nil_r a) at 1. rewrite ends_app by exact H. cbn. apply app_nil_r. Qed.

Lemma last_letter v : forall p, v <> [] -> letters U v -> alphabetic U (last v p) = true.
Proof.
  induction v as [|c v IH]; intros p Hv Hl; [congruence|]. inversion Hl; subst.
  destruct v as [|d v]; [assumption|]. change (last (c :: d :: v) p) with (last (d :: v) p). apply IH; [discriminate|assumption].
Qed.

Lemma body_end w p : good w -> ~ In end_mark (body w) /\ alphabetic U (last (body w) p) = true.
Proof.
  intros H. destruct (body_shape w H) as (v & Hv & Hl & Hb).
  assert (Hn : ~ In end_mark v).
  { intros X. unfold letters in Hl. rewrite Forall_forall in Hl. apply Hl in X. destruct (not_mark _ X) as (_ & _ & E). discriminate. }
  assert (Hp : forall m, last (m :: v) p = last v p) by (intros m; destruct v; [congruence|reflexivity]).
  destruct Hb as [(_ & ->)|(_ & [->| ->])]; rewrite ?Hp; (split; [|apply last_letter; assumption]);
    [exact Hn| |]; intros [X|X]; try discriminate; exact (Hn X).
Qed.

(** Where a word stands after an end-of-word marker. *)
Lemma next_word w rest : good w ->
  next_is_letter U (body w ++ rest) = negb (in_capitals U w) /\ next_starts_word U (body w ++ rest) = true.
Proof.
  intros H. destruct (body_shape w H) as (v & Hv & Hl & Hb).
  destruct v as [|x v]; [congruence|]. inversion Hl as [|? ? Hx _]; subst.
  destruct (not_mark x Hx) as (E1 & E2 & _).
  pose proof (to_marks _ Hok cap_mark (or_introl eq_refl)) as M1.
  pose proof (to_marks _ Hok caps_mark (or_intror (or_introl eq_refl))) as M2.
  destruct Hb as [(-> & ->)|(-> & [->| ->])]; cbn [app next_is_letter next_starts_word negb].
  - rewrite E1, E2. auto.
  - split; [exact M1|exact Hx].
  - split; [exact M2|exact Hx].
Qed.

Lemma next_gap s rest : s <> [] -> non_letters U s -> no_marks s ->
  next_is_letter U (s ++ rest) = false /\ next_starts_word U (s ++ rest) = false.
Proof.
  intros Hs Hl Hn. destruct Hl as [|c s Hc _]; [congruence|]. cbn [app next_is_letter next_starts_word].
  assert (Hm : forall m, In m [cap_mark; caps_mark; end_mark] -> bstr_eqb c m = false).
  { intros m Hm. apply bstr_eqb_neq. intros ->. apply (Hn m Hm). left; reflexivity. }
  rewrite !Hm by (cbn; auto). auto.
Qed.

(** *** Letters and capitals *)
Lemma case_gap s rest m : s <> [] -> m <> First -> non_letters U s -> no_marks s ->
  decode_case U up m (s ++ rest) = s ++ decode_case U up Plain rest.
Proof.
  intros Hs Hm Hl Hn.
  assert (K : forall s, non_letters U s -> no_marks s -> decode_case U up Plain (s ++ rest) = s ++ decode_case U up Plain rest).
  { clear. induction 1 as [|c s Hc _ IH]; intros Hn; [reflexivity|]. cbn [app decode_case].
    assert (Hm : forall m, In m [cap_mark; caps_mark; end_mark] -> bstr_eqb c m = false).
    { intros m Hm. apply bstr_eqb_neq. intros ->. apply (Hn m Hm). left; reflexivity. }
    rewrite !Hm by (cbn; auto). f_equal. apply IH. intros m Hm' Hin. apply (Hn m Hm'). right; exact Hin. }
  destruct Hl as [|c s Hc Hl]; [congruence|]. cbn [app decode_case].
  assert (Hm' : forall m, In m [cap_mark; caps_mark; end_mark] -> bstr_eqb c m = false).
  { intros m' Hm'. apply bstr_eqb_neq. intros ->. apply (Hn m' Hm'). left; reflexivity. }
  rewrite !Hm' by (cbn; auto). rewrite Hc.
  rewrite K; [destruct m; [|congruence|]; reflexivity|exact Hl|].
  intros m' Hm2 Hin. apply (Hn m' Hm2). right; exact Hin.
Qed.

Lemma case_plain v rest : letters U v -> decode_case U up Plain (v ++ rest) = v ++ decode_case U up Plain rest.
Proof.
  induction 1 as [|c v Hc _ IH]; [reflexivity|]. cbn [app decode_case].
  destruct (not_mark c Hc) as (-> & -> & _). f_equal. exact IH.
Qed.

Lemma case_all rest : forall w before, Forall (fun c => uppercase U c = true) w ->
  reversible_case U up w -> small_letters U w ->
  decode_case U up All (lower_from U before w ++ rest) = w ++ decode_case U up All rest.
Proof.
  induction w as [|c w IH]; intros before Hu Hr Hsl; [reflexivity|].
  inversion Hu as [|? ? Hc Hw]; subst.
  destruct (Hr c (or_introl eq_refl) Hc) as ((l & El & Eu & Hl) & Hs).
  destruct (Hsl c (or_introl eq_refl) Hc) as (S1 & S2).
  cbn [lower_from]. rewrite <- app_assoc.
  assert (IH' := IH (c :: before) Hw (fun x Hx => Hr x (or_intror Hx)) (fun x Hx => Hsl x (or_intror Hx))).
  assert (K : forall x r, alphabetic U x = true -> decode_case U up All (x :: r) = up x :: decode_case U up All r).
  { intros x r Hx. cbn [decode_case]. destruct (not_mark x Hx) as (-> & -> & _). rewrite Hx. reflexivity. }
  destruct (bstr_eqb_spec c cap_sigma) as [E|_].
  - destruct (Hs E) as (E1 & E2), (S2 E) as (E3 & E4). destruct (_ && _); cbn [app]; rewrite K by assumption; 
    [rewrite E2|rewrite E1]; f_equal; exact IH'.
  - rewrite El. cbn [app]. rewrite K, Eu by (apply S1; rewrite El; left; reflexivity). f_equal. exact IH'.
Qed.

(** A word, decoded: what follows is read in a mode that lets non-letters
    and markers through. *)
Lemma case_body w rest m : good w -> m <> First -> (m = All -> in_capitals U w = true) ->
  exists m', m' <> First /\ decode_case U up m (body w ++ rest) = w ++ decode_case U up m' rest.
Proof.
  intros (Hw & Hl & Hr & Hs) Hm Hall. destruct w as [|c r]; [congruence|]. unfold body. unfold in_capitals in Hall.
  inversion Hl as [|? ? Hc Hrl]; subst.
  assert (K : m = Plain -> exists m', m' <> First /\ decode_case U up m ((c :: r) ++ rest) = (c :: r) ++ decode_case U up m' rest).
  { intros ->. exists Plain. split; [discriminate|]. apply case_plain. exact Hl. }
  destruct (uppercase U c) eqn:Eu; cbn [andb] in *;
    [|apply K; destruct m; [reflexivity|congruence|specialize (Hall eq_refl); discriminate]].
  destruct (Hr c (or_introl eq_refl) Eu) as ((x & Ex & Eup & _) & _).
  destruct (forallb (lowercase U) r).
  - exists Plain. split; [discriminate|]. rewrite Ex. cbn [firstn app decode_case].
    change (bstr_eqb cap_mark cap_mark) with true. cbv iota.
    assert (Hx : alphabetic U x = true) by (apply (Hs c (or_introl eq_refl) Eu); rewrite Ex; left; reflexivity).
    destruct (not_mark x Hx) as (-> & -> & _). rewrite Eup. f_equal. apply case_plain. exact Hrl.
  - destruct (forallb (uppercase U) r) eqn:Ef.
    + exists All. split; [discriminate|]. cbn [app decode_case].
      change (bstr_eqb caps_mark cap_mark) with false. change (bstr_eqb caps_mark caps_mark) with true. cbv iota.
      unfold lower_str. rewrite case_all; [reflexivity| |exact Hr|exact Hs].
      constructor; [exact Eu|]. apply Forall_forall. intros y Hy. exact (proj1 (forallb_forall _ _) Ef y Hy).
    + apply K. destruct m; [reflexivity|congruence|specialize (Hall eq_refl); discriminate].
Qed.

(** *** The whole text, for both rules *)
(** The text left by the two rules. *)
Fixpoint left_by (strict : bool) (l : list (text * text)) : text :=
  match l with
  | [] => []
  | [(w, s)] => w ++ s
  | (w, s) :: (((w2, _) :: _) as r) =>
      w ++ (if text_dec s [space] then if strict && in_capitals U w2 then [] else [space] else s) ++ left_by strict r
  end.
Definition rule (strict : bool) : text -> bool := if strict then next_is_letter U else next_starts_word U.

Lemma good_part a b c t : t = a ++ b ++ c -> b <> [] -> letters U b -> reversible_case U up t -> small_letters U t -> good b.
Proof.
  intros -> Hb Hl Hr Hs. split; [exact Hb|]. split; [exact Hl|]. 
  split; intros x Hx; [apply Hr|apply Hs]; apply in_or_app; right; apply in_or_app; left; exact Hx.
Qed.

Lemma no_marks_part a b c : no_marks (a ++ b ++ c) -> no_marks b.
Proof. intros H m Hm X. apply (H m Hm). apply in_or_app; right; apply in_or_app; left; exact X. Qed.
Lemma no_end b : no_marks b -> ~ In end_mark b.
Proof. intros H. apply H. cbn; auto. Qed.

(** The first pass. *)
Lemma ends_word nx w p rest : good w ->
  decode_ends U nx p (marked U w ++ rest) = body w ++ (if nx rest then [space] else []) ++ decode_ends U nx end_mark rest.
Proof.
  intros Hg. destruct (body_end w p Hg) as (Hn & Hal). rewrite marked_body by apply Hg. rewrite <- app_assoc.
  rewrite ends_app by exact Hn. cbn [app decode_ends]. rewrite Hal. reflexivity.
Qed.

Lemma pieces_head_word t l : pieces U t l -> l <> [] -> exists w s r, l = (w, s) :: r /\ w <> [] /\ letters U w /\ exists t', t = w ++ t'.
Proof.
  destruct 1 as [|w s Hw Hl Hs|w s t l Hw Hl Hs0 Hs Hne Hp]; intros H; [congruence| |].
  - exists w, s, []. repeat split; eauto.
  - exists w, s, l. repeat split; eauto.
Qed.

Lemma render_head w s r : w <> [] -> exists rest, render U ((w, s) :: r) = body w ++ rest.
Proof.
  intros Hw. destruct r as [|p r].
  - cbn [render]. rewrite marked_body by exact Hw. rewrite <- app_assoc. eauto.
  - replace (render U ((w, s) :: p :: r)) with (marked U w ++ (if text_dec s [space] then [] else s) ++ render U (p :: r)) by reflexivity.
    rewrite marked_body by exact Hw. rewrite <- app_assoc. eauto.
Qed.

Lemma rule_gap strict s rest : s <> [] -> non_letters U s -> no_marks s -> rule strict (s ++ rest) = false.
Proof. intros H1 H2 H3. destruct (next_gap s rest H1 H2 H3). destruct strict; assumption. Qed.
Lemma rule_word strict w rest : good w -> rule strict (body w ++ rest) = negb (strict && in_capitals U w).
Proof. intros H. destruct (next_word w rest H). destruct strict; assumption. Qed.

Lemma reversible_part a b c : reversible_case U up (a ++ b ++ c) -> reversible_case U up c.
Proof. intros H x Hx. apply H. apply in_or_app; right; apply in_or_app; right; exact Hx. Qed.
Lemma small_part a b c : small_letters U (a ++ b ++ c) -> small_letters U c.
Proof. intros H x Hx. apply H. apply in_or_app; right; apply in_or_app; right; exact Hx. Qed.

Lemma decode_pieces strict t l : pieces U t l -> no_marks t -> reversible_case U up t -> small_letters U t ->
  forall p m, m <> First -> (m = All -> match l with (w, _) :: _ => in_capitals U w = true | [] => True end) ->
  decode_case U up m (decode_ends U (rule strict) p (render U l)) = left_by strict l.
Proof.
  induction 1 as [|w s Hw Hl Hs|w s t l Hw Hl Hs0 Hs Hne Hp IH]; intros Hn Hr Hsl p m Hm Hall.
  - reflexivity.
  - assert (Hg : good w) by (apply (good_part [] w s (w ++ s)); auto).
    assert (Hns : no_marks s) by (apply (no_marks_part w s []); rewrite app_nil_r; exact Hn).
    cbn [render left_by]. rewrite ends_word by exact Hg.
    assert (E : rule strict s = false).
    { destruct s as [|c s]; [destruct strict; reflexivity|].
      rewrite <- (app_nil_r (c :: s)). apply rule_gap; [discriminate|exact Hs|exact Hns]. }
    rewrite E. cbn [app]. rewrite ends_id by (apply no_end; exact Hns).
    destruct (case_body w s m Hg Hm Hall) as (m' & Hm' & E'). rewrite E'. f_equal.
    destruct s as [|c s]; [reflexivity|]. rewrite <- (app_nil_r (c :: s)) at 1.
    rewrite case_gap by (try discriminate; assumption). cbn. rewrite app_nil_r. reflexivity.
  - assert (Hg : good w) by (apply (good_part [] w (s ++ t) (w ++ s ++ t)); auto).
    assert (Hns : no_marks s) by (apply (no_marks_part w s t); exact Hn).
    assert (Hnt : no_marks t) by (apply (no_marks_part (w ++ s) t []); rewrite app_nil_r, <- app_assoc; exact Hn).
    apply reversible_part in Hr as Hr'. apply small_part in Hsl as Hsl'.
    specialize (IH Hnt Hr' Hsl').
    destruct (pieces_head_word t l Hp Hne) as (w2 & s2 & r & -> & Hw2 & Hl2 & t' & ->).
    assert (Hg2 : good w2) by (apply (good_part [] w2 t' (w2 ++ t')); auto).
    destruct (render_head w2 s2 r Hw2) as (rest & Er).
    replace (render U ((w, s) :: (w2, s2) :: r)) with
      (marked U w ++ (if text_dec s [space] then [] else s) ++ render U ((w2, s2) :: r)) by reflexivity.
    replace (left_by strict ((w, s) :: (w2, s2) :: r)) with
      (w ++ (if text_dec s [space] then if strict && in_capitals U w2 then [] else [space] else s)
         ++ left_by strict ((w2, s2) :: r)) by reflexivity.
    rewrite ends_word by exact Hg.
    destruct (text_dec s [space]) as [->|Hsp].
    + cbn [app]. rewrite Er at 1. rewrite rule_word by exact Hg2.
      destruct (strict && in_capitals U w2) eqn:Ec; cbn [negb].
      * cbn [app]. destruct (case_body w (decode_ends U (rule strict) end_mark (render U ((w2, s2) :: r))) m Hg Hm Hall)
          as (m' & Hm' & ->). f_equal. apply IH; [exact Hm'|]. intros _. apply andb_true_iff in Ec as (_ & Ec). exact Ec.
      * destruct (case_body w ([space] ++ decode_ends U (rule strict) end_mark (render U ((w2, s2) :: r))) m Hg Hm Hall)
          as (m' & Hm' & ->). f_equal. rewrite case_gap; try assumption; try discriminate.
        f_equal. apply IH; discriminate.
    + rewrite rule_gap by assumption. cbn [app]. rewrite ends_app by (apply no_end; exact Hns).
      destruct (case_body w (s ++ decode_ends U (rule strict) (last s end_mark) (render U ((w2, s2) :: r))) m Hg Hm Hall)
        as (m' & Hm' & ->). f_equal. rewrite case_gap; try assumption.
      f_equal. apply IH; discriminate.
Qed.

Lemma decode_text strict t lead l : words_of U t lead l -> no_marks t -> reversible_case U up t -> small_letters U t ->
  decode U up (rule strict) (lead ++ render U l) = lead ++ left_by strict l.
Proof.
  intros (t' & -> & Hlead & Hp) Hn Hr Hs. unfold decode.
  assert (Hnl : no_marks lead) by (apply (no_marks_part [] lead t'); exact Hn).
  rewrite ends_app by (apply no_end; exact Hnl).
  assert (Hnt : no_marks t') by (apply (no_marks_part lead t' []); rewrite app_nil_r; exact Hn).
  assert (K : forall q, decode_case U up Plain (decode_ends U (rule strict) q (render U l)) = left_by strict l).
  { intros q. apply (decode_pieces strict t'); try assumption; try discriminate.
    - apply (reversible_part [] lead). exact Hr.
    - apply (small_part [] lead). exact Hs. }
  destruct lead as [|c lead]; [apply K|]. rewrite case_gap; try assumption; try discriminate. f_equal. apply K.
Qed.

Lemma left_strict : forall l, left_by true l = squeezed U l.
Proof.
  induction l as [|(w, s) [|(w2, s2) r] IH]; [reflexivity|reflexivity|].
  cbn [left_by squeezed andb]. cbn [left_by squeezed andb] in IH. rewrite <- IH. reflexivity.
Qed.

Lemma left_lenient t l : pieces U t l -> left_by false l = t.
Proof.
  induction 1 as [|w s Hw Hl Hs|w s t l Hw Hl Hs0 Hs Hne Hp IH]; [reflexivity|reflexivity|].
  destruct l as [|(w2, s2) r]; [congruence|].
  replace (left_by false ((w, s) :: (w2, s2) :: r)) with
    (w ++ (if text_dec s [space] then [space] else s) ++ left_by false ((w2, s2) :: r)) by reflexivity.
  rewrite IH. destruct (text_dec s [space]) as [->|]; reflexivity.
Qed.

(** The literal rule loses exactly the single spaces before words in capitals. *)
Lemma squeezed_length t l : pieces U t l ->
  length (squeezed U l) <= length t /\ (spaced_capitals U l -> length (squeezed U l) < length t) /\
  (~ spaced_capitals U l -> squeezed U l = t).
Proof.
  induction 1 as [|w s Hw Hl Hs|w s t l Hw Hl Hs0 Hs Hne Hp (IH1 & IH2 & IH3)].
  - split; [cbn; lia|]. split; [intros X; inversion X|reflexivity].
  - split; [cbn [squeezed]; lia|]. split; [|reflexivity].
    intros X. inversion X as [|? ? X']; subst. inversion X'.
  - destruct l as [|(w2, s2) r]; [congruence|].
    replace (squeezed U ((w, s) :: (w2, s2) :: r)) with
      (w ++ (if text_dec s [space] then if in_capitals U w2 then [] else [space] else s) ++ squeezed U ((w2, s2) :: r)) by reflexivity.
    destruct (text_dec s [space]) as [->|Hsp].
    + destruct (in_capitals U w2) eqn:Ec.
      * rewrite !app_length. cbn [length]. split; [lia|]. split; [lia|]. intros X. exfalso. apply X. apply sc_here. exact Ec.
      * rewrite !app_length. cbn [length]. split; [lia|]. split.
        -- intros X. inversion X as [? ? ? ? Y|? ? Y]; subst; [congruence|]. specialize (IH2 Y). lia.
        -- intros X. rewrite IH3 by (intros Y; apply X; apply sc_later; exact Y). reflexivity.
    + rewrite !app_length. split; [lia|]. split.
      * intros X. inversion X as [? ? ? ? Y|? ? Y]; subst; [congruence|]. specialize (IH2 Y). lia.
      * intros X. rewrite IH3 by (intros Y; apply X; apply sc_later; exact Y). reflexivity.
Qed.
End Readme.

(** ** C94 *)
(** What the rule of the README, taken word for word, gives back: the text
    without the single spaces that stand between a word and a word in capitals. *)
Theorem C94_literal_rule : forall U up t lead l out, table_ok U ->
  words_of U t lead l -> no_marks t -> reversible_case U up t -> small_letters U t ->
  process U t = Ret out ->
  decode U up (next_is_letter U) out = lead ++ squeezed U l.
Proof.
  intros U up t lead l out Hok Hw Hn Hr Hs E. rewrite (process_form U Hok _ _ _ Hw) in E. injection E as <-.
  pose proof (decode_text U up Hok true t lead l Hw Hn Hr Hs) as H. rewrite left_strict in H. exact H.
Qed.

(** So it gives the text back exactly when there is no such space. *)
Theorem C94_literal_rule_partial : forall U up t lead l out, table_ok U ->
  words_of U t lead l -> no_marks t -> reversible_case U up t -> small_letters U t ->
  process U t = Ret out ->
  (decode U up (next_is_letter U) out = t <-> ~ spaced_capitals U l).
Proof.
  intros U up t lead l out Hok Hw Hn Hr Hs E.
  rewrite (C94_literal_rule U up t lead l out Hok Hw Hn Hr Hs E).
  destruct Hw as (t' & -> & _ & Hp). destruct (squeezed_length U t' l Hp) as (_ & H2 & H3). split.
  - intros E' X. apply app_inv_head in E'. specialize (H2 X). rewrite E' in H2. lia.
  - intros X. f_equal. apply H3, X.
Qed.

(** Taking the two other markers as part of the word after them, the rule gives
    every such text back. *)
Theorem C94_rule_through_markers : forall U up t out, table_ok U ->
  no_marks t -> reversible_case U up t -> small_letters U t ->
  process U t = Ret out ->
  decode U up (next_starts_word U) out = t.
Proof.
  intros U up t out Hok Hn Hr Hs E. destruct (words_exist U t) as (lead & l & Hw).
  rewrite (process_form U Hok _ _ _ Hw) in E. injection E as <-.
  pose proof (decode_text U up Hok false t lead l Hw Hn Hr Hs) as H.
  destruct Hw as (t' & -> & _ & Hp). rewrite (left_lenient U t' l Hp) in H. exact H.
Qed.

(** The rule word for word, on "a B": the space is lost, with any table. *)
Theorem C94_literal_rule_refuted : forall U up, table_ok U -> agrees_on_ascii U ->
  up [x62] = [x42] ->
  exists out, process U [[x61]; [x20]; [x42]] = Ret out /\
    decode U up (next_is_letter U) out = [[x61]; [x42]].
Proof.
  intros U up Hok Ha Hup.
  assert (A1 : alphabetic U [x61] = true) by (rewrite (aa_alpha _ Ha); [reflexivity|cbn; lia]).
  assert (A2 : alphabetic U [x42] = true) by (rewrite (aa_alpha _ Ha); [reflexivity|cbn; lia]).
  assert (A3 : alphabetic U [x62] = true) by (rewrite (aa_alpha _ Ha); [reflexivity|cbn; lia]).
  assert (Hw : words_of U [[x61]; [x20]; [x42]] [] [([[x61]], [[x20]]); ([[x42]], [])]).
  { exists [[x61]; [x20]; [x42]]. split; [reflexivity|]. split; [constructor|].
    apply (pieces_cons U [[x61]] [[x20]]); try discriminate; try (repeat constructor; assumption).
    - repeat constructor. exact (to_space _ Hok).
    - apply (pieces_last U [[x42]] []); try discriminate; repeat constructor; assumption. }
  eexists. split; [apply (process_form U Hok _ _ _ Hw)|].
  assert (L1 : uppercase U [x61] = false) by (rewrite (aa_upper _ Ha); [reflexivity|cbn; lia]).
  assert (L2 : uppercase U [x42] = true) by (rewrite (aa_upper _ Ha); [reflexivity|cbn; lia]).
  assert (L3 : lower_char U [x42] = [[x62]]) by (rewrite (aa_map _ Ha); [reflexivity|cbn; lia]).
  cbn [render marked forallb app]. rewrite L1, L2, L3. cbn [andb firstn app].
  destruct (text_dec [[x20]] [space]) as [_|X]; [|exfalso; apply X; reflexivity]. cbn [app].
  pose proof (to_marks _ Hok cap_mark (or_introl eq_refl)) as M1.
  unfold decode.
  cbn [decode_ends bstr_eqb]. cbn. rewrite A1, A3, M1. cbn. rewrite Hup. reflexivity.
Qed.

(** The hypotheses are met: ",Hi US  a!" with the ASCII table, where the rule
    word for word loses the space before "US". *)
Theorem C94_hypotheses_met :
  let t := map (fun b => [b]) [x2c; x48; x69; x20; x55; x53; x20; x20; x61; x21] in
  no_marks t /\ reversible_case ascii_table ascii_to_upper t /\ small_letters ascii_table t /\
  exists out, process ascii_table t = Ret out /\
    decode ascii_table ascii_to_upper (next_starts_word ascii_table) out = t /\
    decode ascii_table ascii_to_upper (next_is_letter ascii_table) out =
      map (fun b => [b]) [x2c; x48; x69; x55; x53; x20; x20; x61; x21].
Proof.
  cbv zeta. split; [intros m [<-|[<-|[<-|[]]]] X; repeat (destruct X as [X|X]; [discriminate|]); exact X|].
  split; [|split].
  - intros c Hc Hu. cbn [map In] in Hc. split; [|intros ->; repeat (destruct Hc as [Hc|Hc]; [discriminate Hc|]); contradiction].
    exists (ascii_to_lower c). split; [reflexivity|].
    repeat (destruct Hc as [<-|Hc]; [first [vm_compute in Hu; discriminate Hu|split; [reflexivity|intros X; vm_compute in X; discriminate X]]|]).
    contradiction.
  - intros c Hc Hu. cbn [map In] in Hc. split; [|intros ->; repeat (destruct Hc as [Hc|Hc]; [discriminate Hc|]); contradiction].
    intros x Hx. repeat (destruct Hc as [<-|Hc]; [first [vm_compute in Hu; discriminate Hu|destruct Hx as [<-|[]]; reflexivity]|]). contradiction.
  - eexists. split; [reflexivity|]. split; reflexivity.
Qed.
