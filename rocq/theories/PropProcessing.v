(** * Properties C32-C34 and C49: caps-words processing. *)
From Verif Require Import Base BaseLemmas Utf8 SamplerModel PropSampler ProcessingModel.

(** ** Specification *)
(** What every Unicode table satisfies: lower-case mappings are not empty; the
    markers, the space and the newline are not letters. *)
Record table_ok (U : unicode) : Prop := {
  to_lower : forall c, lower_char U c <> [];
  to_marks : forall m, In m [cap_mark; caps_mark; end_mark] -> alphabetic U m = false;
  to_space : alphabetic U space = false;
  to_newline : alphabetic U newline = false
}.

(** A text cut into words: leading non-letters, then words, each with the
    non-letters that follow it. *)
Definition letters (U : unicode) (t : text) : Prop := Forall (fun c => alphabetic U c = true) t.
Definition non_letters (U : unicode) (t : text) : Prop := Forall (fun c => alphabetic U c = false) t.

Inductive pieces (U : unicode) : text -> list (text * text) -> Prop :=
| pieces_nil : pieces U [] []
| pieces_last w s : w <> [] -> letters U w -> non_letters U s -> pieces U (w ++ s) [(w, s)]
| pieces_cons w s t l : w <> [] -> letters U w -> s <> [] -> non_letters U s ->
    l <> [] -> pieces U t l -> pieces U (w ++ s ++ t) ((w, s) :: l).

Definition words_of (U : unicode) (t : text) (lead : text) (l : list (text * text)) : Prop :=
  exists t', t = lead ++ t' /\ non_letters U lead /\ pieces U t' l.

(** The form of a word in the output: markers for a capitalized and for an
    all-capitals word, then the end of word marker. *)
Definition marked (U : unicode) (w : text) : text :=
  match w with
  | [] => []
  | c :: r =>
      (if uppercase U c && forallb (lowercase U) r then cap_mark :: firstn 1 (lower_char U c) ++ r
       else if uppercase U c && forallb (uppercase U) r then caps_mark :: lower_str U w
       else w) ++ [end_mark]
  end.

Definition text_dec : forall a b : text, {a = b} + {a <> b} := list_eq_dec (list_eq_dec Byte.byte_eq_dec).

(** The processed pieces: a single space between two words is dropped. *)
Fixpoint render (U : unicode) (l : list (text * text)) : text :=
  match l with
  | [] => []
  | [(w, s)] => marked U w ++ s
  | (w, s) :: r => marked U w ++ (if text_dec s [space] then [] else s) ++ render U r
  end.

(** ** The word machine *)
Section Machine.
Variable U : unicode.
Hypothesis Hok : table_ok U.

Lemma add_word_spec out w : w <> [] -> add_word U out w = Ret (out ++ marked U w).
Proof.
  intros Hw. destruct w as [|c r]; [congruence|]. unfold add_word, marked. cbn [assert_that bind hd_error unwrap tl].
  destruct (uppercase U c); cbn [andb bind]; [|rewrite <- app_assoc; reflexivity].
  destruct (forallb (lowercase U) r).
  - destruct (lower_char U c) as [|l ls] eqn:El; [exfalso; exact (to_lower _ Hok c El)|].
    cbn. rewrite <- !app_assoc. reflexivity.
  - destruct (forallb (uppercase U) r); cbn [bind]; rewrite <- !app_assoc; reflexivity.
Qed.

Lemma get_letter c : alphabetic U c = true -> get_char_type U c = Letter.
Proof. unfold get_char_type. intros ->. reflexivity. Qed.
Lemma get_other c : alphabetic U c = false -> c <> space -> get_char_type U c = NonLetter.
Proof. unfold get_char_type. intros -> H. apply bstr_eqb_neq in H. rewrite H. reflexivity. Qed.
Lemma get_space : get_char_type U space = Space.
Proof. unfold get_char_type. rewrite (to_space _ Hok). reflexivity. Qed.

Lemma space_dec (c : bstr) : {c = space} + {c <> space}.
Proof. exact (list_eq_dec Byte.byte_eq_dec c space). Qed.

Notation run t s := (mfold (process_step U) t s).

Lemma run_app a b s : run (a ++ b) s = (s' <- run a s ;; run b s').
Proof. apply mfold_app. Qed.

Lemma run_non_letters s : non_letters U s -> forall out w,
  run s (out, w, NonWord) = Ret (out ++ s, w, NonWord).
Proof.
  induction 1 as [|c s Hc _ IH]; intros out w; [cbn; rewrite app_nil_r; reflexivity|].
  cbn [mfold]. unfold process_step at 1. destruct (space_dec c) as [->|Hs].
  - rewrite get_space. cbn [bind]. rewrite IH, <- app_assoc. reflexivity.
  - rewrite get_other by assumption. cbn [bind]. rewrite IH, <- app_assoc. reflexivity.
Qed.

Lemma run_letters w : letters U w -> forall out word, run w (out, word, Word) = Ret (out, word ++ w, Word).
Proof.
  induction 1 as [|c s Hc _ IH]; intros out word; [cbn; rewrite app_nil_r; reflexivity|].
  cbn [mfold]. unfold process_step at 1. rewrite get_letter by assumption. cbn [bind].
  rewrite IH, <- app_assoc. reflexivity.
Qed.

Lemma run_word w st : w <> [] -> letters U w -> forall out,
  run w (out, [], st) = Ret (out, w, Word).
Proof.
  intros Hw Hl out. destruct Hl as [|c s Hc Hs]; [congruence|].
  cbn [mfold]. unfold process_step at 1. rewrite get_letter by assumption.
  destruct st; cbn [bind app]; rewrite run_letters by assumption; reflexivity.
Qed.

(** What follows a word. *)
Lemma run_after_word w s : w <> [] -> non_letters U s -> forall out,
  run s (out, w, Word) =
    match s with
    | [] => Ret (out, w, Word)
    | [c] => if space_dec c then Ret (out ++ marked U w, [], SpaceAfterWord)
             else Ret (out ++ marked U w ++ [c], [], NonWord)
    | _ => Ret (out ++ marked U w ++ s, [], NonWord)
    end.
Proof.
  intros Hw Hs out. destruct Hs as [|c s Hc Hs]; [reflexivity|].
  cbn [mfold]. unfold process_step at 1. destruct (space_dec c) as [->|Hsp].
  - rewrite get_space, add_word_spec by assumption. cbn [bind].
    destruct Hs as [|c2 s Hc2 Hs]; [reflexivity|].
    cbn [mfold]. unfold process_step at 1. destruct (space_dec c2) as [->|Hsp2].
    + rewrite get_space. cbn [bind]. rewrite run_non_letters by assumption.
      rewrite <- !app_assoc. reflexivity.
    + rewrite get_other by assumption. cbn [bind]. rewrite run_non_letters by assumption.
      rewrite <- !app_assoc. reflexivity.
  - rewrite get_other, add_word_spec by assumption. cbn [bind]. rewrite run_non_letters by assumption.
    destruct s; rewrite <- ?app_assoc; reflexivity.
Qed.

Lemma run_pieces t l : pieces U t l -> forall out st, st <> Word ->
  (st = SpaceAfterWord -> l <> []) ->
  (s <- run t (out, [], st) ;; process_end U s) = Ret (out ++ render U l).
Proof.
  induction 1 as [|w s Hw Hl Hs|w s t l Hw Hl Hs0 Hs Hne Hp IH]; intros out st Hst Hsp.
  - cbn. destruct st; [congruence|exfalso; apply Hsp; reflexivity|]. cbn. rewrite app_nil_r. reflexivity.
  - rewrite run_app, run_word by assumption. cbn [bind]. rewrite run_after_word by assumption.
    destruct s as [|c [|c2 s]].
    + cbn [bind process_end render]. rewrite add_word_spec by assumption. rewrite app_nil_r. reflexivity.
    + destruct (space_dec c) as [->|]; cbn [bind process_end render]; rewrite <- ?app_assoc; reflexivity.
    + cbn [bind process_end render]. reflexivity.
  - rewrite run_app, run_word by assumption. cbn [bind]. rewrite run_app, run_after_word by assumption.
    assert (Er : render U ((w, s) :: l) = marked U w ++
       (if text_dec s [space] then [] else s) ++ render U l).
    { destruct l; [congruence|reflexivity]. }
    rewrite Er. destruct s as [|c [|c2 s]]; [congruence| |].
    + destruct (space_dec c) as [->|Hc]; cbn [bind]; rewrite IH; try congruence.
      * destruct (text_dec [space] [space]) as [_|X]; [|congruence]. rewrite <- !app_assoc. reflexivity.
      * destruct (text_dec [c] [space]) as [X|_]; [congruence|]. rewrite <- !app_assoc. reflexivity.
    + cbn [bind]. rewrite IH; try congruence.
      destruct (text_dec (c :: c2 :: s) [space]) as [X|_]; [congruence|]. rewrite <- !app_assoc. reflexivity.
Qed.

Lemma process_form t lead l : words_of U t lead l -> process U t = Ret (lead ++ render U l).
Proof.
  intros (t' & -> & Hlead & Hp). unfold process. rewrite run_app, run_non_letters by assumption.
  cbn [bind app]. apply run_pieces; [exact Hp|discriminate|discriminate].
Qed.

(** Every text can be cut this way. *)
Lemma pieces_head t l c : pieces U t l -> alphabetic U c = true ->
  exists w s r, (l = [] /\ w = [] /\ s = [] /\ r = [] \/ l = (w, s) :: r) /\ 
   pieces U (c :: t) (match l with [] => [([c], [])] | (w, s) :: r => (c :: w, s) :: r end).
Proof.
  intros Hp Hc. destruct Hp as [|w s Hw Hl Hs|w s t l Hw Hl Hs0 Hs Hne Hp].
  - exists [], [], []. split; [auto|]. apply (pieces_last U [c] []); [discriminate|constructor; auto; constructor|constructor].
  - exists w, s, []. split; [auto|]. apply (pieces_last U (c :: w) s); [discriminate|constructor; auto|auto].
  - exists w, s, l. split; [auto|]. apply (pieces_cons U (c :: w) s); auto; [discriminate|constructor; auto].
Qed.

Lemma words_exist t : exists lead l, words_of U t lead l.
Proof.
  induction t as [|c t (lead & l & t' & -> & Hlead & Hp)].
  - exists [], [], []. repeat split; constructor.
  - destruct (alphabetic U c) eqn:Ec.
    + destruct lead as [|x lead].
      * destruct (pieces_head _ _ c Hp Ec) as (_ & _ & _ & _ & H).
        exists []. eexists. exists (c :: t'). split; [reflexivity|]. split; [constructor|exact H].
      * exists []. destruct Hp as [|w s Hw Hl Hs|w s t l Hw Hl Hs0 Hs Hne Hp].
        -- exists [([c], x :: lead)]. eexists. split; [reflexivity|]. split; [constructor|].
           rewrite app_nil_r. apply (pieces_last U [c]); [discriminate|constructor; auto; constructor|exact Hlead].
        -- exists [([c], x :: lead); (w, s)]. eexists. split; [reflexivity|]. split; [constructor|].
           apply (pieces_cons U [c] (x :: lead)); try discriminate; auto; [constructor; auto; constructor|].
           apply pieces_last; auto.
        -- exists (([c], x :: lead) :: (w, s) :: l). eexists. split; [reflexivity|]. split; [constructor|].
           apply (pieces_cons U [c] (x :: lead)); try discriminate; auto; [constructor; auto; constructor|].
           apply pieces_cons; auto.
    + exists (c :: lead), l, t'. split; [reflexivity|]. split; [constructor; auto|exact Hp].
Qed.
End Machine.

(** ** C49 *)
(** The processed form of any text: its words marked, everything between them
    kept, except that a single space between two words disappears. *)
Theorem C49_processed_form : forall U t lead l, table_ok U ->
  words_of U t lead l -> process U t = Ret (lead ++ render U l).
Proof. intros; apply process_form; assumption. Qed.

(** Every text has words, so processing never fails. *)
Theorem C49_always_applies : forall U t, table_ok U ->
  exists lead l, words_of U t lead l /\ process U t = Ret (lead ++ render U l).
Proof.
  intros U t H. destruct (words_exist U t) as (lead & l & Hw). exists lead, l.
  split; [exact Hw|]. apply process_form; assumption.
Qed.

Definition count (c : bstr) (t : text) : nat := count_occ (list_eq_dec Byte.byte_eq_dec) t c.

(** Lower-casing brings in no markers. *)
Definition lower_no_marks (U : unicode) (t : text) : Prop := forall c m,
  In c t -> In m [cap_mark; caps_mark; end_mark] -> ~ In m (lower_char U c).

Lemma lower_from_In U c : forall w before, In c (lower_from U before w) ->
  c = small_sigma \/ c = final_sigma \/ exists x, In x w /\ In c (lower_char U x).
Proof.
  induction w as [|x w IH]; intros before H; cbn [lower_from] in H; [contradiction|].
  apply in_app_iff in H as [H|H].
  - destruct (bstr_eqb x cap_sigma).
    + destruct H as [<-|[]]. destruct (_ && _); auto.
    + right; right. exists x. split; [left; reflexivity|exact H].
  - apply IH in H as [H|[H|(y & H1 & H2)]]; auto. right; right. exists y. split; [right; exact H1|exact H2].
Qed.

Lemma count_app c a b : count c (a ++ b) = count c a + count c b.
Proof. apply count_occ_app. Qed.
Lemma count_zero c t : ~ In c t -> count c t = 0.
Proof. apply count_occ_not_In. Qed.

Lemma count_marked U w : table_ok U -> w <> [] -> letters U w -> lower_no_marks U w -> count end_mark (marked U w) = 1.
Proof.
  intros Hok Hw Hl Hn. destruct w as [|c r]; [congruence|]. unfold marked. rewrite count_app.
  assert (Hm : count end_mark (c :: r) = 0).
  { apply count_zero. intros Hin. unfold letters in Hl; rewrite Forall_forall in Hl. pose proof (Hl _ Hin) as X.
    rewrite (to_marks _ Hok) in X; [discriminate|]. cbn; auto. }
  replace (count end_mark [end_mark]) with 1 by reflexivity.
  destruct (uppercase U c && forallb (lowercase U) r); [|destruct (uppercase U c && forallb (uppercase U) r)].
  - change (cap_mark :: firstn 1 (lower_char U c) ++ r) with ([cap_mark] ++ firstn 1 (lower_char U c) ++ r).
    rewrite !count_app. replace (count end_mark [cap_mark]) with 0 by reflexivity.
    change (c :: r) with ([c] ++ r) in Hm. rewrite count_app in Hm.
    rewrite (count_zero end_mark (firstn 1 (lower_char U c))); [lia|].
    intros Hin. apply (Hn c end_mark); [left; reflexivity|cbn; auto|].
    destruct (lower_char U c) as [|x l]; [contradiction|]. destruct Hin as [<-|[]]. left; reflexivity.
  - change (caps_mark :: lower_str U (c :: r)) with ([caps_mark] ++ lower_str U (c :: r)).
    rewrite count_app. replace (count end_mark [caps_mark]) with 0 by reflexivity.
    rewrite (count_zero _ (lower_str U (c :: r))); [lia|]. intros Hin.
    apply lower_from_In in Hin as [Hin|[Hin|(x & Hx & Hin)]]; [discriminate|discriminate|].
    apply (Hn x end_mark); [exact Hx|cbn; auto|exact Hin].
  - lia.
Qed.

(** One end-of-word marker per word. *)
Theorem C49_one_marker_per_word : forall U t lead l out, table_ok U ->
  words_of U t lead l -> lower_no_marks U t -> ~ In end_mark t ->
  process U t = Ret out -> count end_mark out = length l.
Proof.
  intros U t lead l out Hok Hw Hn Hnot E. rewrite (process_form U Hok _ _ _ Hw) in E. injection E as <-.
  destruct Hw as (t' & -> & _ & Hp). rewrite count_app.
  rewrite (count_zero end_mark lead) by (intros X; apply Hnot, in_or_app; left; exact X). cbn [Nat.add].
  assert (Hn' : lower_no_marks U t') by (intros c m Hc; apply Hn, in_or_app; right; exact Hc).
  assert (Hnot' : ~ In end_mark t') by (intros X; apply Hnot, in_or_app; right; exact X).
  clear Hn Hnot. induction Hp as [|w s Hw Hl Hs|w s t l Hw Hl Hs0 Hs Hne Hp IH]; [reflexivity| |].
  - cbn [render]. rewrite count_app, (count_zero end_mark s); [|intros X; apply Hnot', in_or_app; auto].
    rewrite count_marked; auto. intros c m Hc; apply Hn', in_or_app; auto.
  - replace (render U ((w, s) :: l)) with (marked U w ++
       (if text_dec s [space] then [] else s) ++ render U l)
      by (destruct l; [congruence|reflexivity]).
    rewrite !count_app, count_marked; auto; [|intros c m Hc; apply Hn', in_or_app; auto].
    rewrite IH.
    + rewrite (count_zero end_mark (if text_dec s [space] then [] else s)); [reflexivity|].
      destruct (text_dec s [space]); [intros []|]. intros X. apply Hnot', in_or_app; right. apply in_or_app; auto.
    + intros c m Hc; apply Hn'. apply in_or_app; right. apply in_or_app; auto.
    + intros X. apply Hnot'. apply in_or_app; right. apply in_or_app; auto.
Qed.

(** Characters that are neither letters nor spaces, and are no markers. *)
Definition symbol (U : unicode) (c : bstr) : bool :=
  negb (alphabetic U c) && negb (bstr_eqb c space) &&
  negb (existsb (bstr_eqb c) [cap_mark; caps_mark; end_mark]).

Lemma filter_none {A} (f : A -> bool) l : (forall x, In x l -> f x = false) -> filter f l = [].
Proof.
  induction l as [|x l IH]; intros H; [reflexivity|]. cbn. rewrite (H x (or_introl eq_refl)).
  apply IH. intros y Hy. apply H; right; exact Hy.
Qed.

(** They are kept, in order, and none is added (when lower-case forms are letters). *)
Theorem C49_symbols_kept : forall U t out, table_ok U ->
  (forall c l, In c t -> In l (lower_char U c) -> alphabetic U l = true) ->
  alphabetic U small_sigma = true -> alphabetic U final_sigma = true ->
  process U t = Ret out -> filter (symbol U) out = filter (symbol U) t.
Proof.
  intros U t out Hok Hlow Hs1 Hs2 E.
  destruct (words_exist U t) as (lead & l & Hw). rewrite (process_form U Hok _ _ _ Hw) in E. injection E as <-.
  destruct Hw as (t' & -> & _ & Hp). rewrite !filter_app. f_equal.
  assert (Hlow' : forall c l, In c t' -> In l (lower_char U c) -> alphabetic U l = true)
    by (intros c m Hc; apply Hlow, in_or_app; right; exact Hc).
  clear Hlow.
  assert (Hletter : forall c, alphabetic U c = true -> symbol U c = false).
  { intros c Hc. unfold symbol. rewrite Hc. reflexivity. }
  assert (Hmark : forall m, In m [cap_mark; caps_mark; end_mark] -> symbol U m = false).
  { intros m [<-|[<-|[<-|[]]]]; unfold symbol; cbn; rewrite ?andb_false_r; reflexivity. }
  assert (Hword : forall w, letters U w -> filter (symbol U) w = []).
  { intros w H. apply filter_none. intros x Hx. apply Hletter. unfold letters in H; rewrite Forall_forall in H. auto. }
  assert (Hmarked : forall w, letters U w -> (forall c, In c w -> In c t') -> filter (symbol U) (marked U w) = []).
  { intros w H Hin. apply filter_none. intros x Hx. destruct w as [|c r]; [contradiction|].
    unfold marked in Hx. apply in_app_iff in Hx as [Hx|[<-|[]]]; [|apply Hmark; cbn; auto].
    unfold letters in H; rewrite Forall_forall in H.
    destruct (uppercase U c && forallb (lowercase U) r); [|destruct (uppercase U c && forallb (uppercase U) r)].
    - destruct Hx as [<-|Hx]; [apply Hmark; cbn; auto|]. apply in_app_iff in Hx as [Hx|Hx].
      + apply Hletter, (Hlow' c); [apply Hin; left; reflexivity|].
        destruct (lower_char U c); [contradiction|]. destruct Hx as [<-|[]]. left; reflexivity.
      + apply Hletter, H. right; exact Hx.
    - destruct Hx as [<-|Hx]; [apply Hmark; cbn; auto|].
      apply lower_from_In in Hx as [->|[->|(y & Hy & Hx)]]; auto.
      apply Hletter, (Hlow' y); auto.
    - apply Hletter, H, Hx. }
  clear Hlow' Hs1 Hs2. revert Hmarked.
  induction Hp as [|w s Hw Hl Hs|w s t l Hw Hl Hs0 Hs Hne Hp IH]; intros Hmarked; [reflexivity| |].
  - cbn [render]. rewrite !filter_app, (Hmarked w), (Hword w); auto. intros; apply in_or_app; auto.
  - replace (render U ((w, s) :: l)) with (marked U w ++
       (if text_dec s [space] then [] else s) ++ render U l)
      by (destruct l; [congruence|reflexivity]).
    rewrite !filter_app, (Hmarked w), (Hword w), IH; auto.
    + f_equal. f_equal. destruct (text_dec s [space]) as [->|]; [|reflexivity].
      cbn. unfold symbol. cbn. rewrite andb_false_r. reflexivity.
    + intros v Hv Hin. apply Hmarked; [exact Hv|]. intros c Hc. apply in_or_app; right. apply in_or_app; auto.
    + intros; apply in_or_app; auto.
Qed.

(** A sample table: ASCII, with the standard mappings of two other letters. *)
Definition is_range (lo hi : nat) (c : bstr) : bool :=
  match c with [b] => (lo <=? b2n b) && (b2n b <=? hi) | _ => false end.
Definition ascii_upper := is_range 65 90.
Definition ascii_lower := is_range 97 122.
Definition ascii_to_lower (c : bstr) : bstr :=
  match c with [b] => if ascii_upper c then [n2b (b2n b + 32)] else c | _ => c end.
Definition ascii_to_upper (c : bstr) : bstr :=
  match c with [b] => if ascii_lower c then [n2b (b2n b - 32)] else c | _ => c end.

(** Facts about the Unicode tables on ASCII characters. *)
Record agrees_on_ascii (U : unicode) : Prop := {
  aa_alpha : forall b, b2n b < 128 -> alphabetic U [b] = ascii_upper [b] || ascii_lower [b];
  aa_upper : forall b, b2n b < 128 -> uppercase U [b] = ascii_upper [b];
  aa_lower : forall b, b2n b < 128 -> lowercase U [b] = ascii_lower [b];
  aa_map : forall b, b2n b < 128 -> lower_char U [b] = [ascii_to_lower [b]]
}.

Definition ascii_table : unicode := {|
  alphabetic := fun c => ascii_upper c || ascii_lower c;
  uppercase := ascii_upper;
  lowercase := ascii_lower;
  lower_char := fun c => [ascii_to_lower c];
  cased := fun c => ascii_upper c || ascii_lower c;
  case_ignorable := fun _ => false
|}.

Lemma ascii_table_ok : table_ok ascii_table /\ agrees_on_ascii ascii_table.
Proof.
  split; [split|split]; cbn; try reflexivity; try discriminate.
  intros m [<-|[<-|[<-|[]]]]; reflexivity.
Qed.

Example C49_example :
  words_of ascii_table (map (fun b => [b]) [x2c; x48; x69; x20; x55; x53; x20; x20; x61; x21]) [[x2c]]
    [([[x48]; [x69]], [[x20]]); ([[x55]; [x53]], [[x20]; [x20]]); ([[x61]], [[x21]])] /\
  process ascii_table (map (fun b => [b]) [x2c; x48; x69; x20; x55; x53; x20; x20; x61; x21]) =
    Ret (map (fun b => [b]) [x2c; x14; x68; x69; x16; x15; x75; x73; x16; x20; x20; x61; x16; x21]).
Proof.
  split; [|reflexivity]. exists (map (fun b => [b]) [x48; x69; x20; x55; x53; x20; x20; x61; x21]).
  split; [reflexivity|]. split; [repeat constructor|].
  apply (pieces_cons _ [[x48]; [x69]] [[x20]]); try discriminate; try (repeat constructor; fail).
  apply (pieces_cons _ [[x55]; [x53]] [[x20]; [x20]]); try discriminate; try (repeat constructor; fail).
  apply (pieces_last _ [[x61]] [[x21]]); try discriminate; repeat constructor.
Qed.

(** ** C32 *)
(** Undoing the processing, given a table of capital letters. *)
Inductive umode := Out | After | Raw | Cap | Caps.
Fixpoint unprocess (U : unicode) (up : bstr -> bstr) (m : umode) (t : text) : text :=
  match t with
  | [] => []
  | c :: r =>
      match m with
      | Out =>
          if bstr_eqb c cap_mark then unprocess U up Cap r
          else if bstr_eqb c caps_mark then unprocess U up Caps r
          else c :: unprocess U up (if alphabetic U c then Raw else Out) r
      | After =>
          if bstr_eqb c cap_mark then space :: unprocess U up Cap r
          else if bstr_eqb c caps_mark then space :: unprocess U up Caps r
          else if alphabetic U c then space :: c :: unprocess U up Raw r
          else c :: unprocess U up Out r
      | Raw => if bstr_eqb c end_mark then unprocess U up After r else c :: unprocess U up Raw r
      | Cap => up c :: unprocess U up Raw r
      | Caps => if bstr_eqb c end_mark then unprocess U up After r else up c :: unprocess U up Caps r
      end
  end.

(** The capitals of the text have a single lower-case character, from which
    they can be found again. *)
Definition reversible_case (U : unicode) (up : bstr -> bstr) (t : text) : Prop :=
  forall c, In c t -> uppercase U c = true ->
  (exists l, lower_char U c = [l] /\ up l = c /\ l <> end_mark) /\
  (c = cap_sigma -> up small_sigma = c /\ up final_sigma = c).

Definition no_marks (t : text) : Prop := forall m, In m [cap_mark; caps_mark; end_mark] -> ~ In m t.

Section Undo.
Variable U : unicode.
Variable up : bstr -> bstr.
Hypothesis Hok : table_ok U.

Lemma letter_not_mark c m : alphabetic U c = true -> In m [cap_mark; caps_mark; end_mark] -> bstr_eqb c m = false.
Proof.
  intros Hc Hm. apply bstr_eqb_neq. intros ->. rewrite (to_marks _ Hok) in Hc by exact Hm. discriminate.
Qed.

Lemma undo_out s rest : non_letters U s -> no_marks s ->
  unprocess U up Out (s ++ rest) = s ++ unprocess U up Out rest.
Proof.
  induction 1 as [|c s Hc _ IH]; intros Hn; [reflexivity|]. cbn [app unprocess].
  assert (Hm : forall m, In m [cap_mark; caps_mark; end_mark] -> bstr_eqb c m = false).
  { intros m Hm. apply bstr_eqb_neq. intros ->. apply (Hn m Hm). left; reflexivity. }
  rewrite !Hm by (cbn; auto). rewrite Hc. f_equal. apply IH. intros m Hm' Hin. apply (Hn m Hm'). right; exact Hin.
Qed.

Lemma undo_raw w rest : letters U w -> unprocess U up Raw (w ++ end_mark :: rest) = w ++ unprocess U up After rest.
Proof.
  induction 1 as [|c w Hc _ IH]; [reflexivity|]. cbn [app unprocess].
  rewrite letter_not_mark by (auto; cbn; auto). f_equal. exact IH.
Qed.

Lemma undo_caps rest : forall w before, Forall (fun c => uppercase U c = true) w -> reversible_case U up w ->
  unprocess U up Caps (lower_from U before w ++ end_mark :: rest) = w ++ unprocess U up After rest.
Proof.
  induction w as [|c w IH]; intros before Hu Hr; [reflexivity|].
  inversion Hu as [|? ? Hc Hw]; subst.
  destruct (Hr c (or_introl eq_refl) Hc) as ((l & El & Eu & Hl) & Hs).
  cbn [lower_from]. rewrite <- app_assoc. 
  assert (IH' := IH (c :: before) Hw (fun x Hx => Hr x (or_intror Hx))).
  destruct (bstr_eqb_spec c cap_sigma) as [->|Hn].
  - destruct (Hs eq_refl) as (E1 & E2).
    destruct (_ && _); cbn [app unprocess bstr_eqb].
    + change (bstr_eqb final_sigma end_mark) with false. cbv iota. rewrite E2. f_equal. exact IH'.
    + change (bstr_eqb small_sigma end_mark) with false. cbv iota. rewrite E1. f_equal. exact IH'.
  - rewrite El. cbn [app unprocess]. apply bstr_eqb_neq in Hl. rewrite Hl, Eu. f_equal. exact IH'.
Qed.

Lemma undo_marked w rest : w <> [] -> letters U w -> reversible_case U up w ->
  unprocess U up Out (marked U w ++ rest) = w ++ unprocess U up After rest /\
  unprocess U up After (marked U w ++ rest) = space :: w ++ unprocess U up After rest.
Proof.
  intros Hw Hl Hr. destruct w as [|c r]; [congruence|]. unfold marked. rewrite <- app_assoc.
  inversion Hl as [|? ? Hc Hrl]; subst.
  destruct (uppercase U c) eqn:Eu; cbn [andb].
  - destruct (Hr c (or_introl eq_refl) Eu) as ((l & El & Eup & Hlm) & _).
    destruct (forallb (lowercase U) r).
    + rewrite El. cbn [firstn app unprocess]. change (bstr_eqb cap_mark cap_mark) with true. cbv iota.
      rewrite Eup, undo_raw by exact Hrl. auto.
    + destruct (forallb (uppercase U) r) eqn:Ef.
      * assert (Hu : Forall (fun x => uppercase U x = true) (c :: r)).
        { constructor; [exact Eu|]. apply Forall_forall. intros x Hx. exact (proj1 (forallb_forall _ _) Ef x Hx). }
        cbn [app unprocess]. change (bstr_eqb caps_mark cap_mark) with false.
        change (bstr_eqb caps_mark caps_mark) with true. cbv iota.
        unfold lower_str. rewrite undo_caps by assumption. auto.
      * cbn [app unprocess]. rewrite !letter_not_mark by (auto; cbn; auto). rewrite Hc, undo_raw by exact Hrl. auto.
  - cbn [app unprocess]. rewrite !letter_not_mark by (auto; cbn; auto). rewrite Hc, undo_raw by exact Hrl. auto.
Qed.

Lemma undo_after s rest : s <> [] -> non_letters U s -> no_marks s ->
  unprocess U up After (s ++ rest) = s ++ unprocess U up Out rest.
Proof.
  intros Hs Hl Hn. destruct Hl as [|c s Hc Hl]; [congruence|]. cbn [app unprocess].
  assert (Hm : forall m, In m [cap_mark; caps_mark; end_mark] -> bstr_eqb c m = false).
  { intros m Hm. apply bstr_eqb_neq. intros ->. apply (Hn m Hm). left; reflexivity. }
  rewrite !Hm by (cbn; auto). rewrite Hc. f_equal. apply undo_out; [exact Hl|].
  intros m Hm' Hin. apply (Hn m Hm'). right; exact Hin.
Qed.

Lemma undo_pieces t l : pieces U t l -> no_marks t -> reversible_case U up t ->
  unprocess U up Out (render U l) = t /\ (l <> [] -> unprocess U up After (render U l) = space :: t).
Proof.
  induction 1 as [|w s Hw Hl Hs|w s t l Hw Hl Hs0 Hs Hne Hp IH]; intros Hn Hr.
  - split; [reflexivity|congruence].
  - cbn [render]. destruct (undo_marked w s Hw Hl) as (E1 & E2).
    { intros c Hc. apply Hr, in_or_app; auto. }
    assert (Es : unprocess U up After s = s).
    { destruct s as [|c s]; [reflexivity|]. rewrite <- (app_nil_r (c :: s)) at 1.
      rewrite undo_after; [apply app_nil_r|discriminate|exact Hs|].
      intros m Hm Hin. apply (Hn m Hm), in_or_app; auto. }
    rewrite E1, E2, Es. auto.
  - replace (render U ((w, s) :: l)) with (marked U w ++
       (if text_dec s [space] then [] else s) ++ render U l)
      by (destruct l; [congruence|reflexivity]).
    destruct (undo_marked w ((if text_dec s [space] then [] else s) ++ render U l) Hw Hl) as (E1 & E2).
    { intros c Hc. apply Hr, in_or_app; auto. }
    destruct IH as (I1 & I2).
    { intros m Hm Hin. apply (Hn m Hm). apply in_or_app; right; apply in_or_app; auto. }
    { intros c Hc. apply Hr. apply in_or_app; right; apply in_or_app; auto. }
    assert (Es : unprocess U up After ((if text_dec s [space] then [] else s) ++ render U l) = s ++ t).
    { destruct (text_dec s [space]) as [->|Hns]; [exact (I2 Hne)|].
      rewrite undo_after; [rewrite I1; reflexivity|exact Hs0|exact Hs|].
      intros m Hm Hin. apply (Hn m Hm). apply in_or_app; right; apply in_or_app; auto. }
    rewrite E1, E2, Es. auto.
Qed.
End Undo.

(** C32 (partial): texts without marker characters whose capitals have
    reversible lower-case forms are recovered exactly. *)
Theorem C32_reversible_partial : forall U up t, table_ok U -> no_marks t -> reversible_case U up t ->
  exists out, process U t = Ret out /\ unprocess U up Out out = t.
Proof.
  intros U up t Hok Hn Hr. destruct (words_exist U t) as (lead & l & Hw).
  exists (lead ++ render U l). split; [apply process_form; assumption|].
  destruct Hw as (t' & -> & Hlead & Hp).
  rewrite undo_out; auto.
  - f_equal. apply undo_pieces; auto.
    + intros m Hm Hin. apply (Hn m Hm), in_or_app; auto.
    + intros c Hc. apply Hr, in_or_app; auto.
  - intros m Hm Hin. apply (Hn m Hm), in_or_app; auto.
Qed.

(** So such texts have different processed forms. *)
Theorem C32_injective_partial : forall U up t1 t2 out, table_ok U ->
  no_marks t1 -> no_marks t2 -> reversible_case U up t1 -> reversible_case U up t2 ->
  process U t1 = Ret out -> process U t2 = Ret out -> t1 = t2.
Proof.
  intros U up t1 t2 out Hok N1 N2 R1 R2 E1 E2.
  destruct (C32_reversible_partial U up t1 Hok N1 R1) as (o1 & F1 & D1).
  destruct (C32_reversible_partial U up t2 Hok N2 R2) as (o2 & F2 & D2). congruence.
Qed.

(** Every ASCII text without markers is recovered, with any Unicode table. *)
Theorem C32_ascii : forall U s, table_ok U -> agrees_on_ascii U ->
  Forall (fun b => b2n b < 128) s -> ~ In x14 s -> ~ In x15 s -> ~ In x16 s ->
  exists out, process U (map (fun b => [b]) s) = Ret out /\
    concat (unprocess U ascii_to_upper Out out) = s.
Proof.
  intros U s Hok Ha Hs N1 N2 N3.
  destruct (C32_reversible_partial U ascii_to_upper (map (fun b => [b]) s)) as (out & E & D); auto.
  - intros m [<-|[<-|[<-|[]]]] Hin; apply in_map_iff in Hin as (b & Eb & Hb); injection Eb as ->; contradiction.
  - intros c Hin Hu. apply in_map_iff in Hin as (b & <- & Hb).
    rewrite Forall_forall in Hs. specialize (Hs b Hb). rewrite (aa_upper _ Ha) in Hu by exact Hs.
    rewrite (aa_map _ Ha) by exact Hs. split; [|discriminate].
    unfold ascii_upper, is_range in Hu. apply andb_true_iff in Hu as (H1 & H2). apply Nat.leb_le in H1, H2.
    eexists. split; [reflexivity|]. unfold ascii_to_lower, ascii_upper, is_range.
    rewrite (proj2 (Nat.leb_le _ _) H1), (proj2 (Nat.leb_le _ _) H2). cbn [andb].
    unfold ascii_to_upper, ascii_lower, is_range. rewrite b2n_n2b_small by lia.
    rewrite (proj2 (Nat.leb_le 97 _)) by lia. rewrite (proj2 (Nat.leb_le _ 122)) by lia. cbn [andb].
    replace (b2n b + 32 - 32) with (b2n b) by lia. rewrite n2b_b2n. split; [reflexivity|].
    intros X. injection X as X. apply (f_equal b2n) in X. rewrite b2n_n2b_small in X by lia. cbn in X. lia.
  - exists out. split; [exact E|]. rewrite D. clear. induction s as [|b s IH]; [reflexivity|]. cbn. f_equal. exact IH.
Qed.

(** The full property is false: a marker in the input is taken for a capital. *)
Theorem C32_reversible_refuted : forall U, table_ok U -> agrees_on_ascii U ->
  exists s1 s2, utf8 s1 /\ utf8 s2 /\ s1 <> s2 /\
    exists out, process_str U s1 = Ret out /\ process_str U s2 = Ret out.
Proof.
  intros U Hok Ha. exists [x41], [x14; x61].
  split; [apply utf8_ascii; repeat constructor; cbn; lia|].
  split; [apply utf8_ascii; repeat constructor; cbn; lia|]. split; [discriminate|].
  exists [x14; x61; x16]. unfold process_str.
  change (chars [x41]) with ([[x41]] : text). change (chars [x14; x61]) with ([[x14]; [x61]] : text).
  assert (A1 : alphabetic U [x41] = true) by (rewrite (aa_alpha _ Ha); [reflexivity|cbn; lia]).
  assert (A2 : alphabetic U [x61] = true) by (rewrite (aa_alpha _ Ha); [reflexivity|cbn; lia]).
  rewrite (process_form U Hok [[x41]] [] [([[x41]], [])]).
  2:{ exists [[x41]]. split; [reflexivity|]. split; [constructor|].
      apply (pieces_last U [[x41]] []); [discriminate|repeat constructor; exact A1|constructor]. }
  rewrite (process_form U Hok [[x14]; [x61]] [[x14]] [([[x61]], [])]).
  2:{ exists [[x61]]. split; [reflexivity|]. split.
      - constructor; [|constructor]. apply (to_marks _ Hok). cbn; auto.
      - apply (pieces_last U [[x61]] []); [discriminate|repeat constructor; exact A2|constructor]. }
  cbn [render marked forallb]. rewrite !(aa_upper _ Ha) by (cbn; lia).
  change (ascii_upper [x41]) with true. change (ascii_upper [x61]) with false. cbn [andb].
  rewrite (aa_map _ Ha) by (cbn; lia). split; reflexivity.
Qed.

(** Nor is it saved by excluding markers: of a capital whose lower-case form has
    several characters only the first is kept (U+0130, capital I with dot). *)
Theorem C32_multichar_refuted : forall U, table_ok U -> agrees_on_ascii U ->
  alphabetic U [xc4; xb0] = true -> uppercase U [xc4; xb0] = true ->
  lower_char U [xc4; xb0] = [[x69]; [xcc; x87]] ->
  exists s1 s2, utf8 s1 /\ utf8 s2 /\ s1 <> s2 /\ no_marks (chars s1) /\ no_marks (chars s2) /\
    exists out, process_str U s1 = Ret out /\ process_str U s2 = Ret out.
Proof.
  intros U Hok Ha D1 D2 D3. exists [x49], [xc4; xb0].
  split; [apply utf8_ascii; repeat constructor; cbn; lia|].
  split; [apply (utf8_cons [xc4; xb0] []); [apply uc2; cbn; lia|constructor]|]. split; [discriminate|].
  change (chars [x49]) with ([[x49]] : text). change (chars [xc4; xb0]) with ([[xc4; xb0]] : text).
  split; [intros m [<-|[<-|[<-|[]]]] [X|[]]; discriminate|].
  split; [intros m [<-|[<-|[<-|[]]]] [X|[]]; discriminate|].
  exists [x14; x69; x16]. unfold process_str.
  change (chars [x49]) with ([[x49]] : text). change (chars [xc4; xb0]) with ([[xc4; xb0]] : text).
  assert (A1 : alphabetic U [x49] = true) by (rewrite (aa_alpha _ Ha); [reflexivity|cbn; lia]).
  rewrite (process_form U Hok [[x49]] [] [([[x49]], [])]).
  2:{ exists [[x49]]. split; [reflexivity|]. split; [constructor|].
      apply (pieces_last U [[x49]] []); [discriminate|repeat constructor; exact A1|constructor]. }
  rewrite (process_form U Hok [[xc4; xb0]] [] [([[xc4; xb0]], [])]).
  2:{ exists [[xc4; xb0]]. split; [reflexivity|]. split; [constructor|].
      apply (pieces_last U [[xc4; xb0]] []); [discriminate|repeat constructor; exact D1|constructor]. }
  cbn [render marked forallb]. rewrite (aa_upper _ Ha), D2, D3, (aa_map _ Ha) by (cbn; lia).
  split; reflexivity.
Qed.

Example C32_example : unprocess ascii_table ascii_to_upper Out
    (map (fun b => [b]) [x2c; x14; x68; x69; x16; x15; x75; x73; x16; x20; x20; x61; x16; x21]) =
  map (fun b => [b]) [x2c; x48; x69; x20; x55; x53; x20; x20; x61; x21].
Proof. reflexivity. Qed.

(** ** Characters of strings *)
Lemma chars_fuel_more : forall f g s, length s <= f -> length s <= g -> chars_fuel f s = chars_fuel g s.
Proof.
  induction f as [|f IH]; intros [|g] [|b s] Hf Hg; cbn in Hf, Hg; try lia; try reflexivity.
  cbn [chars_fuel]. destruct (utf8_step (b :: s)) as (ok, n) eqn:E.
  pose proof (utf8_step_pos _ _ _ (fun X => @nil_cons _ _ _ (eq_sym X)) E) as Hn. f_equal.
  apply IH; rewrite skipn_length; cbn [length] in *; lia.
Qed.

Lemma chars_cons c r : utf8_char c -> chars (c ++ r) = c :: chars r.
Proof.
  intros Hc. unfold chars. pose proof (utf8_char_length c Hc) as L.
  destruct (c ++ r) as [|b s] eqn:E; [destruct c; [cbn in L; lia|discriminate]|].
  cbn [length chars_fuel]. rewrite <- E, utf8_step_char by exact Hc.
  rewrite firstn_length_app, skipn_length_app. f_equal.
  apply (f_equal (@length _)) in E. rewrite app_length in E. cbn in E.
  apply chars_fuel_more; lia.
Qed.

Lemma chars_app a b : utf8 a -> chars (a ++ b) = chars a ++ chars b.
Proof.
  induction 1 as [|c r Hc Hr IH]; [reflexivity|]. rewrite <- app_assoc, (chars_cons c (r ++ b)), (chars_cons c r) by exact Hc.
  rewrite IH. reflexivity.
Qed.

Lemma chars_spec s : utf8 s -> Forall utf8_char (chars s) /\ concat (chars s) = s.
Proof.
  induction 1 as [|c r Hc Hr (IH1 & IH2)]; [split; [constructor|reflexivity]|].
  rewrite chars_cons by exact Hc. split; [constructor; assumption|]. cbn. rewrite IH2. reflexivity.
Qed.

(** ** C33 *)
(** The text that is actually processed: carriage returns before newlines
    dropped, and a missing final newline added. *)
Fixpoint drop_cr (s : bstr) : bstr :=
  match s with
  | [] => []
  | b :: r => match r with
              | b2 :: _ => if Byte.eqb b x0d && Byte.eqb b2 x0a then drop_cr r else b :: drop_cr r
              | [] => [b]
              end
  end.
Fixpoint end_line (s : bstr) : bstr :=
  match s with
  | [] => []
  | [b] => if Byte.eqb b x0a then [b] else [b; x0a]
  | b :: r => b :: end_line r
  end.
Definition lines_text (s : bstr) : bstr := end_line (drop_cr s).

Definition strip_cr (u : bstr) : bstr :=
  match rev u with b :: r => if Byte.eqb b x0d then rev r else u | [] => u end.

Lemma strip_line_snoc u : strip_line (u ++ [x0a]) = strip_cr u.
Proof.
  unfold strip_line, strip_cr. rewrite rev_app_distr. cbn [rev app]. change (Byte.eqb x0a x0a) with true. cbv iota.
  destruct (rev u) as [|b r] eqn:E.
  - apply (f_equal (@rev _)) in E. rewrite rev_involutive in E. subst. reflexivity.
  - rewrite <- E, rev_involutive. reflexivity.
Qed.

Lemma strip_line_none l : ~ In x0a l -> strip_line l = l.
Proof.
  intros H. unfold strip_line. destruct (rev l) as [|a r] eqn:E; [reflexivity|].
  destruct (Byte.eqb a x0a) eqn:Ea; [|reflexivity]. apply byte_eqb_eq in Ea as ->.
  exfalso. apply H. apply in_rev. rewrite E. left; reflexivity.
Qed.

Lemma strip_cr_cons b u : u <> [] -> strip_cr (b :: u) = b :: strip_cr u.
Proof.
  intros H. unfold strip_cr. cbn [rev]. destruct (rev u) as [|x r] eqn:E.
  - apply (f_equal (@rev _)) in E. rewrite rev_involutive in E. contradiction.
  - cbn [app]. destruct (Byte.eqb x x0d); [|reflexivity]. rewrite rev_app_distr. reflexivity.
Qed.

Lemma drop_cr_two b b2 r : drop_cr (b :: b2 :: r) =
  if Byte.eqb b x0d && Byte.eqb b2 x0a then drop_cr (b2 :: r) else b :: drop_cr (b2 :: r).
Proof. reflexivity. Qed.
Lemma drop_cr_nl r : drop_cr (x0a :: r) = x0a :: drop_cr r.
Proof. destruct r; reflexivity. Qed.
Lemma not_newline b u : ~ In x0a (b :: u) -> Byte.eqb b x0a = false.
Proof.
  intros H. destruct (Byte.eqb b x0a) eqn:E; [|reflexivity]. apply byte_eqb_eq in E as ->. exfalso. apply H; left; reflexivity.
Qed.

Lemma drop_cr_line u r : ~ In x0a u -> drop_cr (u ++ x0a :: r) = strip_cr u ++ x0a :: drop_cr r.
Proof.
  induction u as [|b u IH]; intros Hn.
  - cbn [app]. apply drop_cr_nl.
  - assert (Hu : ~ In x0a u) by (intros X; apply Hn; right; exact X).
    destruct u as [|b2 u].
    + cbn [app]. rewrite drop_cr_two, drop_cr_nl. change (Byte.eqb x0a x0a) with true. rewrite andb_true_r.
      unfold strip_cr. cbn [rev app]. destruct (Byte.eqb b x0d); reflexivity.
    + rewrite strip_cr_cons by discriminate. cbn [app] in *. rewrite drop_cr_two, (not_newline b2 u Hu), andb_false_r.
      rewrite <- IH by exact Hu. reflexivity.
Qed.

Lemma drop_cr_none u : ~ In x0a u -> drop_cr u = u.
Proof.
  induction u as [|b u IH]; intros Hn; [reflexivity|].
  assert (Hu : ~ In x0a u) by (intros X; apply Hn; right; exact X).
  destruct u as [|b2 u]; [reflexivity|].
  rewrite drop_cr_two, (not_newline b2 u Hu), andb_false_r, IH by exact Hu. reflexivity.
Qed.

Lemma end_line_cons b r : r <> [] -> end_line (b :: r) = b :: end_line r.
Proof. destruct r; [congruence|reflexivity]. Qed.

Lemma end_line_app u r : end_line (u ++ x0a :: r) = u ++ x0a :: end_line r.
Proof.
  induction u as [|b u IH]; cbn [app].
  - destruct r; [reflexivity|]. apply end_line_cons. discriminate.
  - rewrite end_line_cons, IH; [reflexivity|]. destruct u; discriminate.
Qed.

Lemma end_line_none u : u <> [] -> ~ In x0a u -> end_line u = u ++ [x0a].
Proof.
  induction u as [|b u IH]; intros Hne Hn; [congruence|].
  destruct u as [|b2 u].
  - cbn. destruct (Byte.eqb b x0a) eqn:E; [|reflexivity]. apply byte_eqb_eq in E as ->. exfalso. apply Hn; left; reflexivity.
  - rewrite end_line_cons by discriminate. rewrite IH; [reflexivity|discriminate|].
    intros X; apply Hn; right; exact X.
Qed.

(** Processing does not look across a newline. *)
Section Newline.
Variable U : unicode.
Hypothesis Hok : table_ok U.

Lemma step_frame (pre : text) out w st c r :
  process_step U (out, w, st) c = Ret r ->
  exists o' w' s', r = (o', w', s') /\ process_step U (pre ++ out, w, st) c = Ret (pre ++ o', w', s').
Proof.
  intros H. unfold process_step in *.
  assert (Ha : forall o, add_word U out w = Ret o -> add_word U (pre ++ out) w = Ret (pre ++ o)).
  { intros o Ho. destruct w as [|x w]; [discriminate|].
    rewrite add_word_spec in * by (auto; discriminate). injection Ho as <-. rewrite app_assoc. reflexivity. }
  destruct st, (get_char_type U c).
  1, 4, 5, 6, 7, 8, 9: injection H as <-; eexists _, _, _; (split; [reflexivity|]); rewrite <- ?app_assoc; reflexivity.
  - apply bind_ret in H as (o & Ho & H). injection H as <-. rewrite (Ha _ Ho). cbn [bind].
    eexists _, _, _. split; [reflexivity|]. rewrite ?app_assoc. reflexivity.
  - apply bind_ret in H as (o & Ho & H). injection H as <-. rewrite (Ha _ Ho). cbn [bind].
    eexists _, _, _. split; [reflexivity|]. rewrite ?app_assoc. reflexivity.
Qed.

Lemma run_frame (pre : text) t : forall out w st r,
  mfold (process_step U) t (out, w, st) = Ret r ->
  exists o' w' s', r = (o', w', s') /\ mfold (process_step U) t (pre ++ out, w, st) = Ret (pre ++ o', w', s').
Proof.
  induction t as [|c t IH]; intros out w st r H; cbn [mfold] in *.
  - injection H as <-. eexists _, _, _. split; reflexivity.
  - apply bind_ret in H as (s1 & H1 & H2).
    apply (step_frame pre) in H1 as (o1 & w1 & st1 & -> & E1). rewrite E1. cbn [bind]. apply IH. exact H2.
Qed.

Lemma process_frame (pre : text) t out : process U t = Ret out ->
  (s <- mfold (process_step U) t (pre, [], NonWord) ;; process_end U s) = Ret (pre ++ out).
Proof.
  unfold process. intros H. apply bind_ret in H as (r & Hr & H).
  apply (run_frame pre) in Hr as (o & w & s & -> & E). rewrite app_nil_r in E. rewrite E. cbn [bind].
  unfold process_end in *. destruct s.
  - destruct w as [|x w]; [discriminate|]. rewrite add_word_spec in * by (auto; discriminate).
    injection H as <-. rewrite app_assoc. reflexivity.
  - injection H as <-. rewrite app_assoc. reflexivity.
  - injection H as <-. reflexivity.
Qed.

Lemma run_word_inv t : forall out w st r, (st <> Word -> w = []) ->
  mfold (process_step U) t (out, w, st) = Ret r ->
  let '(_, w', st') := r in st' <> Word -> w' = [].
Proof.
  induction t as [|c t IH]; intros out w st r Hi H; cbn [mfold] in H.
  - injection H as <-. exact Hi.
  - apply bind_ret in H as (((o1, w1), st1) & H1 & H2). apply (IH o1 w1 st1); [|exact H2].
    unfold process_step in H1. destruct st, (get_char_type U c);
      try (apply bind_ret in H1 as (o & Ho & H1));
      injection H1 as <- <- <-; intros X; try reflexivity; try congruence; apply Hi; discriminate.
Qed.

Lemma process_newline a b : exists oa ob, process U a = Ret oa /\ process U b = Ret ob /\
  process U (a ++ newline :: b) = Ret (oa ++ newline :: ob).
Proof.
  destruct (C49_always_applies U a Hok) as (la & ra & _ & Ea).
  destruct (C49_always_applies U b Hok) as (lb & rb & _ & Eb).
  exists (la ++ render U ra), (lb ++ render U rb). split; [exact Ea|]. split; [exact Eb|].
  revert Ea Eb. generalize (la ++ render U ra) as oa, (lb ++ render U rb) as ob. intros oa ob Ea Eb.
  unfold process at 1. rewrite mfold_app.
  unfold process in Ea. destruct (mfold (process_step U) a ([], [], NonWord)) as [((o, w), st)| |] eqn:E; try discriminate.
  cbn [bind mfold] in *. pose proof (run_word_inv a [] [] NonWord _ (fun _ => eq_refl) E) as Hw. cbn in Hw.
  assert (Hstep : process_step U (o, w, st) newline = Ret (oa ++ [newline], [], NonWord)).
  { unfold process_step. rewrite get_other; [|exact (to_newline _ Hok)|discriminate].
    unfold process_end in Ea. destruct st.
    - rewrite Ea. reflexivity.
    - injection Ea as <-. rewrite Hw by discriminate. rewrite <- app_assoc. reflexivity.
    - injection Ea as <-. rewrite Hw by discriminate. reflexivity. }
  rewrite Hstep. cbn [bind].
  replace (oa ++ newline :: ob) with ((oa ++ [newline]) ++ ob) by (rewrite <- app_assoc; reflexivity).
  apply process_frame. exact Eb.
Qed.

Lemma process_str_total s : exists o, process_str U s = Ret o.
Proof.
  unfold process_str. destruct (C49_always_applies U (chars s) Hok) as (lead & l & _ & E). rewrite E. eexists; reflexivity.
Qed.

Lemma process_str_newline a b oa ob : utf8 a -> process_str U a = Ret oa -> process_str U b = Ret ob ->
  process_str U (a ++ x0a :: b) = Ret (oa ++ x0a :: ob).
Proof.
  intros Ha Ea Eb. unfold process_str in *. rewrite chars_app by exact Ha.
  change (x0a :: b) with ([x0a] ++ b). rewrite (chars_cons [x0a]) by (apply uc1; cbn; lia).
  destruct (process_newline (chars a) (chars b)) as (ta & tb & E1 & E2 & E3).
  change [x0a] with newline. rewrite E1 in Ea. rewrite E2 in Eb. rewrite E3. cbn [bind] in *.
  injection Ea as <-. injection Eb as <-. rewrite concat_app. reflexivity.
Qed.
End Newline.

(** ** The buffered writer *)
Definition never_refuses (script : list response) : Prop := ~ In Refuse script.

Lemma drain_spec script : forall data sink ok pending sink' script',
  drain script data sink = (ok, pending, sink', script') ->
  exists d, data = d ++ pending /\ sink' = sink ++ d /\ (ok = true -> pending = []) /\
    (never_refuses script -> ok = true /\ never_refuses script').
Proof.
  induction script as [|r script IH]; intros data sink ok pending sink' script' H.
  - cbn in H. destruct data as [|b data]; injection H as <- <- <- <-.
    + exists []. rewrite !app_nil_r. auto.
    + exists (b :: data). rewrite app_nil_r. auto.
  - cbn [drain] in H. destruct data as [|b data].
    { injection H as <- <- <- <-. exists []. rewrite !app_nil_r. auto. }
    destruct r as [k|].
    + apply IH in H as (d & E1 & E2 & E3 & E4). exists (firstn (S k) (b :: data) ++ d).
      split; [rewrite <- app_assoc, <- E1; symmetry; apply firstn_skipn|].
      split; [rewrite E2, <- app_assoc; reflexivity|]. split; [exact E3|].
      intros Hn. apply E4. intros X; apply Hn; right; exact X.
    + injection H as <- <- <- <-. exists []. rewrite app_nil_r. split; [reflexivity|]. split; [reflexivity|].
      split; [discriminate|]. intros Hn. exfalso. apply Hn. left; reflexivity.
Qed.

Lemma bw_write_spec cap w data ok w' : length (bw_buf w) <= cap -> bw_write cap w data = (ok, w') ->
  length (bw_buf w') <= cap /\
  (exists more, bw_sink w' ++ bw_buf w' ++ more = bw_sink w ++ bw_buf w ++ data /\ (ok = true -> more = [])) /\
  (never_refuses (bw_script w) -> ok = true /\ never_refuses (bw_script w')).
Proof.
  intros Hc. unfold bw_write. destruct (Nat.ltb_spec (length data) (cap - length (bw_buf w))) as [H|H].
  { intros E. injection E as <- <-. cbn. rewrite app_length. split; [lia|]. split; [|auto].
    exists []. rewrite app_nil_r. auto. }
  destruct (Nat.ltb_spec (cap - length (bw_buf w)) (length data)) as [H2|H2].
  - destruct (drain (bw_script w) (bw_buf w) (bw_sink w)) as (((ok1, left1), sink1), script1) eqn:E.
    apply drain_spec in E as (d & E1 & E2 & E3 & E4).
    assert (Ll : length left1 <= cap) by (rewrite E1, app_length in Hc; lia).
    destruct ok1; cbn [negb].
    + rewrite (E3 eq_refl) in *. rewrite app_nil_r in E1. destruct (Nat.leb_spec cap (length data)) as [H3|H3].
      * destruct (drain script1 data sink1) as (((ok2, left2), sink2), script2) eqn:F.
        apply drain_spec in F as (d2 & F1 & F2 & F3 & F4).
        intros X. injection X as <- <-. cbn. split; [lia|]. split.
        -- exists left2. split; [rewrite F2, E2, E1, F1, <- !app_assoc; reflexivity|exact F3].
        -- intros Hn. apply F4, E4, Hn.
      * intros X. injection X as <- <-. cbn. split; [lia|]. split.
        -- exists []. split; [rewrite app_nil_r, E2, E1, <- !app_assoc; reflexivity|auto].
        -- exact E4.
    + intros X. injection X as <- <-. cbn. split; [lia|]. split.
      * exists data. split; [rewrite E2, E1, <- !app_assoc; reflexivity|discriminate].
      * intros Hn. destruct (E4 Hn) as (? & _). discriminate.
  - cbn [negb]. destruct (Nat.leb_spec cap (length data)) as [H3|H3].
    + destruct (drain (bw_script w) data (bw_sink w)) as (((ok2, left2), sink2), script2) eqn:F.
      apply drain_spec in F as (d2 & F1 & F2 & F3 & F4).
      intros X. injection X as <- <-. cbn. split; [lia|].
      assert (Hb : bw_buf w = []) by (destruct (bw_buf w); [reflexivity|cbn in *; lia]).
      rewrite Hb. cbn [app]. split; [|exact F4].
      exists left2. split; [rewrite F2, F1, <- !app_assoc; reflexivity|exact F3].
    + intros X. injection X as <- <-. cbn. rewrite app_length. split; [lia|]. split; [|auto].
      exists []. rewrite app_nil_r. auto.
Qed.

Lemma lines_text_line u r : ~ In x0a u -> lines_text (u ++ x0a :: r) = strip_cr u ++ x0a :: lines_text r.
Proof. intros H. unfold lines_text. rewrite drop_cr_line, end_line_app by exact H. reflexivity. Qed.
Lemma lines_text_last l : l <> [] -> ~ In x0a l -> lines_text l = l ++ [x0a].
Proof. intros H1 H2. unfold lines_text. rewrite drop_cr_none by exact H2. apply end_line_none; assumption. Qed.

Lemma strip_cr_utf8 u : utf8 u -> utf8 (strip_cr u).
Proof.
  intros H. unfold strip_cr. destruct (rev u) as [|b r] eqn:E; [exact H|].
  destruct (Byte.eqb b x0d) eqn:Eb; [|exact H]. apply byte_eqb_eq in Eb as ->.
  assert (Eu : u = rev r ++ [x0d]) by (rewrite <- (rev_involutive u), E; reflexivity).
  rewrite Eu in H. apply (utf8_cut_before _ [x0d]); [exact H|].
  right. exists x0d, []. split; [reflexivity|left; cbn; lia].
Qed.

(** One line of the input. *)
Lemma read_line_cases data : data <> [] -> exists l r, read_line data = (l, r) /\ data = l ++ r /\ l <> [] /\
  ((exists u, l = u ++ [x0a] /\ ~ In x0a u) \/ (r = [] /\ ~ In x0a l)).
Proof.
  intros Hd. destruct (read_line_spec data Hd) as (l & r & E & Ed & Hl & Hn & Hr).
  exists l, r. split; [exact E|]. split; [exact Ed|]. split; [exact Hl|].
  destruct (in_dec Byte.byte_eq_dec x0a l) as [Hin|Hno].
  - left. destruct (exists_last Hl) as (u & b & ->).
    assert (Hu : ~ In x0a u).
    { intros X. apply In_nth_error in X as (k & Hk). assert (k < length u) by (apply nth_error_Some; congruence).
      apply (Hn k); [rewrite app_length; cbn; lia|]. rewrite nth_error_app1 by lia. exact Hk. }
    apply in_app_iff in Hin as [Hin|[->|[]]]; [contradiction|]. exists u. auto.
  - right. split; [|exact Hno]. destruct Hr as [Hr|(u & ->)]; [exact Hr|]. exfalso. apply Hno, in_or_app. right; left; reflexivity.
Qed.

Section Lines.
Variable U : unicode.
Hypothesis Hok : table_ok U.
Variable cap : nat.

Lemma utf8_nl u : utf8 (u ++ [x0a]) -> utf8 u.
Proof.
  intros H. apply (utf8_cut_before _ [x0a]); [exact H|]. right. exists x0a, []. split; [reflexivity|left; cbn; lia].
Qed.

Lemma process_lines_spec : forall fuel rest w, length rest < fuel -> length (bw_buf w) <= cap ->
  exists ok w', process_lines U fuel cap rest w = Ret (ok, w') /\ length (bw_buf w') <= cap /\
    (~ utf8 rest -> ok = false) /\
    (utf8 rest -> exists out more, process_str U (lines_text rest) = Ret out /\
      bw_sink w' ++ bw_buf w' ++ more = bw_sink w ++ bw_buf w ++ out /\ (ok = true -> more = []) /\
      (never_refuses (bw_script w) -> ok = true /\ never_refuses (bw_script w'))).
Proof.
  induction fuel as [|f IH]; intros rest w Hf Hc; [lia|]. cbn [process_lines].
  destruct rest as [|r0 rest0] eqn:Er.
  { cbn. exists true, w. split; [reflexivity|]. split; [exact Hc|]. split; [intros H; exfalso; apply H; constructor|].
    intros _. exists [], []. rewrite !app_nil_r. auto. }
  rewrite <- Er in *. assert (Hne : rest <> []) by (rewrite Er; discriminate). clear Er r0 rest0.
  destruct (read_line_cases rest Hne) as (l & r & E & Erest & Hl & Hcase). rewrite E.
  destruct l as [|l0 l'] eqn:El; [congruence|]. rewrite <- El in *. clear l' El l0.
  assert (Lr : length r < f).
  { rewrite Erest, app_length in Hf. destruct l; [congruence|cbn in Hf; lia]. }
  destruct (utf8_valid l) eqn:Ev; cbn [negb].
  2:{ exists false, w. split; [reflexivity|]. split; [exact Hc|]. split; [reflexivity|]. intros Hu.
      assert (utf8 l); [|apply utf8_valid_spec in H; congruence].
      destruct Hcase as [(u & -> & _)|(-> & _)].
      - rewrite Erest, <- app_assoc in Hu. cbn in Hu. apply utf8_cut_after in Hu; [tauto|cbn; lia].
      - rewrite app_nil_r in Erest. congruence. }
  apply utf8_valid_spec in Ev.
  destruct (process_str_total U Hok (strip_line l)) as (o1 & Eo1). rewrite Eo1. cbn [bind].
  destruct (bw_write cap w o1) as (ok1, w1) eqn:W1.
  apply bw_write_spec in W1 as (C1 & (m1 & M1 & N1) & R1); [|exact Hc].
  (* the output of the rest *)
  assert (Hrest : utf8 rest -> exists oline orest, process_str U (lines_text rest) = Ret (oline ++ x0a :: orest) /\
            oline = o1 /\ process_str U (lines_text r) = Ret orest /\ utf8 r).
  { intros Hu. destruct Hcase as [(u & -> & Hnu)|(-> & Hnl)].
    - rewrite Erest, <- app_assoc in *. cbn [app] in *. rewrite lines_text_line by exact Hnu.
      destruct (process_str_total U Hok (lines_text r)) as (o2 & Eo2).
      rewrite strip_line_snoc in Eo1. exists o1, o2.
      split; [apply process_str_newline; auto; apply strip_cr_utf8, utf8_nl, Ev|].
      split; [reflexivity|]. split; [exact Eo2|]. apply utf8_cut_after in Hu; [tauto|cbn; lia].
    - rewrite app_nil_r in Erest. subst rest. rewrite lines_text_last by assumption.
      rewrite strip_line_none in Eo1 by exact Hnl. exists o1, []. split.
      + apply process_str_newline; auto.
      + split; [reflexivity|]. split; [reflexivity|constructor]. }
  destruct ok1; cbn [negb].
  2:{ exists false, w1. split; [reflexivity|]. split; [exact C1|]. split; [reflexivity|]. intros Hu.
      destruct (Hrest Hu) as (ol & orest & Eo & -> & _). exists (o1 ++ x0a :: orest), (m1 ++ x0a :: orest).
      split; [exact Eo|]. split; [|split; [discriminate|]].
      - rewrite !app_assoc. f_equal. rewrite <- !app_assoc. exact M1.
      - intros Hn. destruct (R1 Hn) as (X & _). discriminate. }
  rewrite (N1 eq_refl) in *. clear N1 m1. rewrite app_nil_r in M1.
  destruct (bw_write cap w1 [x0a]) as (ok2, w2) eqn:W2.
  apply bw_write_spec in W2 as (C2 & (m2 & M2 & N2) & R2); [|exact C1].
  destruct ok2; cbn [negb].
  2:{ exists false, w2. split; [reflexivity|]. split; [exact C2|]. split; [reflexivity|]. intros Hu.
      destruct (Hrest Hu) as (ol & orest & Eo & -> & _). exists (o1 ++ x0a :: orest), (m2 ++ orest).
      split; [exact Eo|]. split; [|split; [discriminate|]].
      - replace (bw_sink w ++ bw_buf w ++ o1 ++ x0a :: orest) with ((bw_sink w ++ bw_buf w ++ o1) ++ x0a :: orest)
          by (rewrite <- !app_assoc; reflexivity).
        rewrite <- M1. replace ((bw_sink w1 ++ bw_buf w1) ++ x0a :: orest) with ((bw_sink w1 ++ bw_buf w1 ++ [x0a]) ++ orest)
          by (rewrite <- !app_assoc; reflexivity).
        rewrite <- M2, <- !app_assoc. reflexivity.
      - intros Hn. destruct (R1 Hn) as (_ & X). destruct (R2 X) as (Y & _). discriminate. }
  rewrite (N2 eq_refl) in *. clear N2 m2. rewrite app_nil_r in M2.
  destruct (IH r w2 Lr C2) as (ok & w' & E' & C' & Hbad & Hgood).
  exists ok, w'. split; [exact E'|]. split; [exact C'|]. split.
  - intros Hu. apply Hbad. intros Hr. apply Hu. rewrite Erest. apply utf8_app; assumption.
  - intros Hu. destruct (Hrest Hu) as (ol & orest & Eo & -> & Eor & Hr).
    destruct (Hgood Hr) as (out & more & Eout & M & N & R). rewrite Eor in Eout. injection Eout as ->.
    exists (o1 ++ x0a :: out), more. split; [exact Eo|]. split; [|split; [exact N|]].
    + rewrite M. rewrite app_assoc, M2, <- !app_assoc. rewrite (app_assoc (bw_sink w1)), M1, <- !app_assoc. reflexivity.
    + intros Hn. apply R. apply R2. apply R1. exact Hn.
Qed.
End Lines.

(** C33: with an output that accepts everything, the file written is the
    processed form of the text with its line ends normalised. *)
Theorem C33_file_processing : forall U cap script file, table_ok U -> never_refuses script -> utf8 file ->
  exists out, process_str U (lines_text file) = Ret out /\
    process_file U cap script file = Ret (true, out).
Proof.
  intros U cap script file Hok Hn Hu. unfold process_file.
  destruct (process_lines_spec U Hok cap (S (length file)) file
    {| bw_buf := []; bw_sink := []; bw_script := script |}) as (ok & w & E & _ & _ & H); [lia|cbn; lia|].
  destruct (H Hu) as (out & more & Eo & M & N & R). cbn in M, R. destruct (R Hn) as (-> & Hn').
  rewrite (N eq_refl), app_nil_r in M. exists out. split; [exact Eo|]. rewrite E. cbn [bind]. f_equal. f_equal.
  unfold bw_drop. destruct (drain (bw_script w) (bw_buf w) (bw_sink w)) as (((ok2, left2), sink2), script2) eqn:F.
  apply drain_spec in F as (d & F1 & F2 & F3 & F4). destruct (F4 Hn') as (-> & _). rewrite (F3 eq_refl), app_nil_r in F1.
  rewrite F2, <- F1. exact M.
Qed.

(** The property itself (partial): text with plain line ends and a final newline. *)
Definition plain_lines (s : bstr) : Prop :=
  (forall u v, s <> u ++ x0d :: x0a :: v) /\ (s = [] \/ exists u, s = u ++ [x0a]).

Lemma drop_cr_plain s : (forall u v, s <> u ++ x0d :: x0a :: v) -> drop_cr s = s.
Proof.
  induction s as [|b s IH]; intros H; [reflexivity|]. destruct s as [|b2 s]; [reflexivity|].
  rewrite drop_cr_two. rewrite IH by (intros u v E; apply (H (b :: u) v); rewrite E; reflexivity).
  destruct (Byte.eqb b x0d) eqn:E1; [|reflexivity]. destruct (Byte.eqb b2 x0a) eqn:E2; [|reflexivity].
  apply byte_eqb_eq in E1, E2. subst. exfalso. apply (H [] s). reflexivity.
Qed.

Lemma lines_text_plain s : plain_lines s -> lines_text s = s.
Proof.
  intros (H1 & H2). unfold lines_text. rewrite drop_cr_plain by exact H1. destruct H2 as [->|(u & ->)]; [reflexivity|].
  apply end_line_app.
Qed.

Theorem C33_file_processing_partial : forall U cap script file, table_ok U -> never_refuses script -> utf8 file ->
  plain_lines file ->
  exists out, process_str U file = Ret out /\ process_file U cap script file = Ret (true, out).
Proof.
  intros U cap script file Hok Hn Hu Hp.
  destruct (C33_file_processing U cap script file Hok Hn Hu) as (out & E & F).
  rewrite lines_text_plain in E by exact Hp. eauto.
Qed.

(** In general it fails: a missing final newline is added, and a carriage return
    before a newline is lost. *)
Theorem C33_file_processing_refuted : forall U cap, table_ok U -> agrees_on_ascii U ->
  process_str U [x2c] = Ret [x2c] /\ process_file U cap [] [x2c] = Ret (true, [x2c; x0a]) /\
  process_str U [x0d; x0a] = Ret [x0d; x0a] /\ process_file U cap [] [x0d; x0a] = Ret (true, [x0a]).
Proof.
  intros U cap Hok Ha.
  assert (S : forall s, Forall (fun b => b2n b < 128 /\ ascii_upper [b] || ascii_lower [b] = false) s ->
    process_str U s = Ret s).
  { intros s Hs. unfold process_str.
    assert (Ec : chars s = map (fun b => [b]) s).
    { clear -Hs. induction Hs as [|b s (Hb & _) _ IH]; [reflexivity|].
      change (b :: s) with ([b] ++ s). rewrite chars_cons by (apply uc1; exact Hb). rewrite IH. reflexivity. }
    rewrite Ec. rewrite (process_form U Hok _ (map (fun b => [b]) s) []).
    - cbn [render bind]. rewrite app_nil_r. f_equal. clear. induction s as [|b s IH]; [reflexivity|]. cbn. f_equal. exact IH.
    - exists []. rewrite app_nil_r. split; [reflexivity|]. split; [|constructor].
      clear -Hs Ha. induction Hs as [|b s (Hb & Hn) _ IH]; [constructor|]. cbn. constructor; [|exact IH].
      rewrite (aa_alpha _ Ha) by exact Hb. exact Hn. }
  assert (P : forall s o, utf8 s -> process_str U (lines_text s) = Ret o -> process_file U cap [] s = Ret (true, o)).
  { intros s o Hu E. destruct (C33_file_processing U cap [] s Hok) as (o' & E' & F); [intros []|exact Hu|]. congruence. }
  assert (A : forall s, Forall (fun b => b2n b < 128) s -> utf8 s) by exact utf8_ascii.
  split; [apply S; repeat constructor; cbn; lia|].
  split; [apply P; [apply A; repeat constructor; cbn; lia|apply S; repeat constructor; cbn; lia]|].
  split; [apply S; repeat constructor; cbn; lia|].
  apply P; [apply A; repeat constructor; cbn; lia|apply S; repeat constructor; cbn; lia].
Qed.

(** Invalid text is always reported. *)
Theorem C33_invalid_text_is_reported : forall U cap script file, table_ok U -> ~ utf8 file ->
  exists sink, process_file U cap script file = Ret (false, sink).
Proof.
  intros U cap script file Hok Hu. unfold process_file.
  destruct (process_lines_spec U Hok cap (S (length file)) file
    {| bw_buf := []; bw_sink := []; bw_script := script |}) as (ok & w & E & _ & H & _); [lia|cbn; lia|].
  rewrite E. cbn [bind]. rewrite (H Hu). eauto.
Qed.

(** C34 (partial): at whatever point the output fails, what reached it is a
    prefix of the processed text; and if success is reported, at most one
    buffer at the end is missing. *)
Theorem C34_success_partial : forall U cap script file, table_ok U -> utf8 file ->
  exists ok sink out missing, process_file U cap script file = Ret (ok, sink) /\
    process_str U (lines_text file) = Ret out /\ out = sink ++ missing /\
    (ok = true -> length missing <= cap).
Proof.
  intros U cap script file Hok Hu. unfold process_file.
  destruct (process_lines_spec U Hok cap (S (length file)) file
    {| bw_buf := []; bw_sink := []; bw_script := script |}) as (ok & w & E & C & _ & H); [lia|cbn; lia|].
  destruct (H Hu) as (out & more & Eo & M & N & _). cbn in M. rewrite E. cbn [bind].
  exists ok, (bw_drop w), out. unfold bw_drop.
  destruct (drain (bw_script w) (bw_buf w) (bw_sink w)) as (((ok2, left2), sink2), script2) eqn:F.
  apply drain_spec in F as (d & F1 & F2 & _). exists (left2 ++ more). split; [reflexivity|]. split; [exact Eo|].
  split; [rewrite <- M, F2, F1, <- !app_assoc; reflexivity|].
  intros Ht. rewrite (N Ht), app_nil_r. rewrite F1, app_length in C. lia.
Qed.

(** The full property is false: the last buffer is flushed when the writer is
    dropped, and a failure at that point is ignored. *)
Theorem C34_success_refuted : forall U, table_ok U -> agrees_on_ascii U ->
  exists script file out, utf8 file /\ process_str U file = Ret out /\ out <> [] /\
    process_file U default_capacity script file = Ret (true, []).
Proof.
  intros U Hok Ha. exists [Refuse], [x0a], [x0a].
  split; [apply utf8_ascii; repeat constructor; cbn; lia|].
  assert (E0 : process_str U [] = Ret []) by reflexivity.
  split; [exact (process_str_newline U Hok [] [] [] [] utf8_nil E0 E0)|]. split; [discriminate|].
  unfold process_file. cbn [length process_lines read_line].
  change (Byte.eqb x0a x0a) with true. cbv iota.
  change (utf8_valid [x0a]) with true. cbn [negb].
  change (strip_line [x0a]) with (@nil byte). rewrite E0. cbn [bind].
  assert (Hcap : 8 <= default_capacity) by (unfold default_capacity; lia).
  generalize dependent default_capacity. intros cap Hcap.
  unfold bw_write at 1. cbn [bw_buf bw_sink bw_script length app]. rewrite Nat.sub_0_r.
  rewrite (proj2 (Nat.ltb_lt 0 cap)) by lia. cbn [negb].
  unfold bw_write at 1. cbn [bw_buf bw_sink bw_script length app]. rewrite Nat.sub_0_r.
  rewrite (proj2 (Nat.ltb_lt 1 cap)) by lia. reflexivity.
Qed.

Example C33_example : process_file ascii_table 4 [Accept 1; Accept 0] [x48; x69; x0d; x0a; x61]
  = Ret (true, [x14; x68; x69; x16; x0a; x61; x16; x0a]).
Proof. reflexivity. Qed.
Example C34_example : process_file ascii_table 4 [Accept 1; Refuse] [x48; x69; x0d; x0a; x61]
  = Ret (false, [x14; x68]).
Proof. reflexivity. Qed.
