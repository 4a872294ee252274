(** * Property C85: texts can be recovered from the tokens of an optimized set. *)
From Coq Require Import ZArith.
From Verif Require Import Base BaseLemmas TokenSetModel TokenizerModel TokSpec SortLemmas TokenizerProof1 TokenizerProof2
  TokenizerTheory TokenSetProof TokenSetProof2 PropTokenizer PropTokenSet StatsAlgebra BatchModel PropBatch
  PropJson Shaped CacheModel PropCache OptBytesModel OptBytesProof OptBytesProof2
  OptBytesProof3 OptBytesProof4 PropOptBytes OptimizeModel OptimizeProof1 OptimizeProof2 OptimizeProof3 OptimizeProof4
  OptimizeProof5 OptimizeProof6 OptimizeProof7 OptimizeProof8 PropOptimize.

(** ** Specification *)

(** Two texts with the same token stream are equal, whichever segmentations the
    streams come from. *)
Definition decodable (ts : tokenset) : Prop :=
  forall ps ps' text text', segments ts ps text -> segments ts ps' text' ->
    stream ts ps = stream ts ps' -> text = text'.

(** ** Code words: what a piece stands for and the tokens it emits *)
Definition word : Type := (bstr * list (option token))%type.
Definition word_of (s : bstr) : word := (s, [Some (Str s)]).
Definition words (ts : tokenset) : list word := map word_of (str_tokens ts) ++ map (denotes ts) (sequences ts).

Definition unique (C : list word) : Prop :=
  forall l l', incl l C -> incl l' C -> concat (map snd l) = concat (map snd l') -> concat (map fst l) = concat (map fst l').

Lemma unique_incl C C' : incl C' C -> unique C -> unique C'.
Proof. intros H U l l' Hl Hl'. apply U; intros x Hx; auto. Qed.

Lemma segments_words ts ps text : segments ts ps text ->
  exists l, incl l (words ts) /\ concat (map fst l) = text /\ concat (map snd l) = map (nth_error (tokens ts)) (stream ts ps).
Proof.
  induction 1 as [|pc ps s r Hp _ (l & Hi & E1 & E2)].
  - exists []. split; [intros x []|]. split; reflexivity.
  - assert (G : In (s, map (nth_error (tokens ts)) (piece_tokens ts pc)) (words ts)).
    { unfold words. apply in_app_iff. destruct pc as [i|i]; cbn [piece_string piece_tokens] in *.
      - left. destruct (nth_error (tokens ts) i) as [[x|]|] eqn:E; try discriminate. injection Hp as ->. cbn [map]. rewrite E.
        apply (in_map word_of). apply in_str_tokens. eapply nth_error_In; exact E.
      - right. destruct (nth_error (sequences ts) i) as [q|] eqn:E; [|discriminate]. injection Hp as <-.
        apply (in_map (denotes ts)). eapply nth_error_In; exact E. }
    exists ((s, map (nth_error (tokens ts)) (piece_tokens ts pc)) :: l). split; [intros x [<-|Hx]; auto|].
    cbn [map concat fst snd]. rewrite E1, E2. split; [reflexivity|]. unfold stream. cbn [flat_map]. rewrite map_app. reflexivity.
Qed.

Lemma words_segments ts l : seqs_in_range ts -> incl l (words ts) ->
  exists ps, segments ts ps (concat (map fst l)) /\ map (nth_error (tokens ts)) (stream ts ps) = concat (map snd l) /\
    Forall (fun i => i < ntokens ts) (stream ts ps).
Proof.
  intros Hr. induction l as [|w l IH]; intros Hi.
  - exists []. split; [constructor|]. split; [reflexivity|constructor].
  - destruct IH as (ps & S & E & R); [intros x Hx; apply Hi; right; exact Hx|].
    assert (G : exists pc, piece_string ts pc = Some (fst w) /\ map (nth_error (tokens ts)) (piece_tokens ts pc) = snd w /\
      Forall (fun i => i < ntokens ts) (piece_tokens ts pc)).
    { specialize (Hi w (or_introl eq_refl)). unfold words in Hi. apply in_app_iff in Hi as [Hi|Hi]; apply in_map_iff in Hi as (x & <- & Hx).
      - apply in_str_tokens, In_nth_error in Hx as (i & E1). exists (PTok i). cbn. rewrite E1. split; [reflexivity|]. split; [reflexivity|].
        constructor; [|constructor]. apply nth_error_Some. congruence.
      - pose proof Hx as Hin. apply In_nth_error in Hx as (i & E1). exists (PSeq i). cbn [piece_string piece_tokens]. rewrite E1. split; [reflexivity|].
        split; [reflexivity|]. apply Forall_forall. intros j Hj. apply (Hr x j Hin Hj). }
    destruct G as (pc & G1 & G2 & G3). exists (pc :: ps). split; [cbn; constructor; assumption|].
    unfold stream. cbn [flat_map map concat]. rewrite map_app. fold (stream ts ps). rewrite G2, E. split; [reflexivity|].
    apply Forall_app. auto.
Qed.

Lemma map_nth_inj {A} (l : list A) : NoDup l -> forall a b, Forall (fun i => i < length l) a -> Forall (fun i => i < length l) b ->
  map (nth_error l) a = map (nth_error l) b -> a = b.
Proof.
  intros N. induction a as [|i a IH]; intros [|j b] Ha Hb E; try discriminate; [reflexivity|].
  cbn in E. injection E as E1 E2. inversion Ha; inversion Hb; subst. f_equal; [|apply IH; assumption].
  apply (proj1 (NoDup_nth_error l) N); assumption.
Qed.

Lemma words_decodable ts : unique (words ts) -> decodable ts.
Proof.
  intros U ps ps' text text' S S' E. destruct (segments_words _ _ _ S) as (l & I1 & <- & E1).
  destruct (segments_words _ _ _ S') as (l' & I2 & <- & E2). apply U; [assumption..|]. rewrite E1, E2, E. reflexivity.
Qed.

Lemma decodable_words ts : NoDup (tokens ts) -> seqs_in_range ts -> decodable ts -> unique (words ts).
Proof.
  intros N R D l l' I1 I2 E. destruct (words_segments _ _ R I1) as (ps & S & E1 & F1). destruct (words_segments _ _ R I2) as (ps' & S' & E2 & F2).
  eapply D; [exact S|exact S'|]. eapply map_nth_inj; [exact N|exact F1|exact F2|]. rewrite E1, E2. exact E.
Qed.

Lemma shaped_nodup ts ss : shaped ts ss -> NoDup (tokens ts).
Proof.
  intros S. rewrite (sh_tokens _ _ S). pose proof (fits_lt _ _ (sh_fits _ _ S)) as Hn. apply NoDup_app_iff. split; [|split].
  - assert (G : forall k a, a + k <= 256 -> NoDup (map (fun i => Ext (n2b i)) (seq a k))).
    { induction k as [|k IH]; intros a Ha; cbn [seq map]; constructor.
      - intros Hi. apply in_map_iff in Hi as (j & E & Hj). apply in_seq in Hj. injection E as E.
        apply (f_equal b2n) in E. rewrite !b2n_n2b_small in E by lia. lia.
      - apply IH. lia. }
    apply G. lia.
  - pose proof (sh_nodup _ _ S) as H. clear -H. induction H as [|x l Hx _ IH]; cbn; constructor; [|exact IH].
    intros Hi. apply in_map_iff in Hi as (y & E & Hy). injection E as ->. contradiction.
  - intros x Hx Hy. apply in_map_iff in Hx as (i & <- & _). apply in_map_iff in Hy as (y & E & _). discriminate.
Qed.

Lemma visited_words t p sp ts : visited t p sp ts -> decodable ts -> unique (words ts).
Proof.
  intros V. destruct (vi_shaped _ _ _ _ V) as (ss & S). apply decodable_words; [eapply shaped_nodup; exact S|eapply visited_range; exact V].
Qed.

(** A new code word with a mark of its own *)
Lemma cut_at_mark (X : option token) (C : list word) w : snd w = [X] ->
  (forall v, In v C -> ~ In X (snd v)) -> forall l, incl l (w :: C) ->
  incl l C \/ exists a r, l = a ++ w :: r /\ incl a C /\ incl r (w :: C).
Proof.
  intros Hw HC. induction l as [|v l IH]; intros Hi; [left; intros x []|].
  destruct (Hi v (or_introl eq_refl)) as [<-|Hv].
  - right. exists [], l. split; [reflexivity|]. split; [intros x []|intros x Hx; apply Hi; right; exact Hx].
  - destruct IH as [H|(a & r & -> & Ha & Hr)]; [intros x Hx; apply Hi; right; exact Hx|left; intros x [<-|Hx]; auto|].
    right. exists (v :: a), r. split; [reflexivity|]. split; [intros x [<-|Hx]; auto|exact Hr].
Qed.

Lemma no_mark (X : option token) (C : list word) : (forall v, In v C -> ~ In X (snd v)) -> forall a, incl a C -> ~ In X (concat (map snd a)).
Proof.
  intros HC a Ha Hi. apply in_concat in Hi as (x & Hx & Hi). apply in_map_iff in Hx as (v & <- & Hv). exact (HC v (Ha v Hv) Hi).
Qed.

Lemma mark_split {A} (x : A) : forall a a' r r', ~ In x a -> ~ In x a' -> a ++ x :: r = a' ++ x :: r' -> a = a' /\ r = r'.
Proof.
  induction a as [|y a IH]; intros [|y' a'] r r' Ha Ha' E; cbn in E.
  - injection E as E. auto.
  - injection E as E _. exfalso. apply Ha'. left; congruence.
  - injection E as E _. exfalso. apply Ha. left; congruence.
  - injection E as -> E. destruct (IH a' r r') as (-> & ->); auto; intros H; [apply Ha|apply Ha']; right; exact H.
Qed.

Lemma unique_mark (X : option token) (C : list word) w : snd w = [X] -> (forall v, In v C -> ~ In X (snd v)) ->
  unique C -> unique (w :: C).
Proof.
  intros Hw HC U.
  enough (G : forall n l l', length l <= n -> incl l (w :: C) -> incl l' (w :: C) ->
     concat (map snd l) = concat (map snd l') -> concat (map fst l) = concat (map fst l')).
  { intros l l' Hl Hl' E. apply (G (length l) l l'); auto. }
  induction n as [|n IH]; intros l l' Hn Hl Hl' E.
  - destruct l as [|v l]; [|cbn in Hn; lia]. destruct (cut_at_mark X C w Hw HC l' Hl') as [H|(a & r & -> & Ha & Hr)].
    + apply U; [intros x []|exact H|exact E].
    + exfalso. rewrite map_app, concat_app in E. cbn [map concat] in E. rewrite Hw in E. symmetry in E. apply app_eq_nil in E as (_ & E). discriminate.
  - destruct (cut_at_mark X C w Hw HC l Hl) as [H|(a & r & -> & Ha & Hr)], (cut_at_mark X C w Hw HC l' Hl') as [H'|(a' & r' & -> & Ha' & Hr')].
    + apply U; assumption.
    + exfalso. apply (no_mark X C HC l H). rewrite E, map_app, concat_app. cbn [map concat]. rewrite Hw. apply in_app_iff. right. left. reflexivity.
    + exfalso. apply (no_mark X C HC l' H'). rewrite <- E, map_app, concat_app. cbn [map concat]. rewrite Hw. apply in_app_iff. right. left. reflexivity.
    + rewrite !map_app, !concat_app in E. cbn [map concat] in E. rewrite Hw in E. cbn [app] in E.
      apply mark_split in E as (E1 & E2); [|apply (no_mark X C HC); assumption..].
      rewrite !map_app, !concat_app. cbn [map concat]. f_equal; [apply U; assumption|]. f_equal.
      rewrite app_length in Hn. cbn in Hn. apply IH; [lia|assumption..].
Qed.

(** ** The operations of the search keep decodable sets decodable *)
Lemma words_sort ts ts' : ts_sort ts = Ret ts' -> incl (words ts') (words ts).
Proof.
  intros H. pose proof (ts_sort_sorted _ _ H) as W. intros w Hw. unfold words in *. apply in_app_iff in Hw as [Hw|Hw]; apply in_app_iff.
  - left. apply in_map_iff in Hw as (s & <- & Hs). apply in_map. apply in_str_tokens. apply in_str_tokens in Hs.
    eapply Permutation_in; [apply (sv_tokens _ _ W)|exact Hs].
  - right. eapply Permutation_in; [apply (sv_denotes _ _ W)|exact Hw].
Qed.

Lemma words_remove ts i ts' : remove_token ts i = Ret ts' -> incl (words ts') (words ts).
Proof.
  intros H. destruct (remove_token_inv _ _ _ H) as (H1 & H2). destruct (remove_token_ok ts i H1 H2) as (ts2 & t & E & _ & P & D & _).
  rewrite H in E. injection E as <-. intros w Hw. unfold words in *. apply in_app_iff in Hw as [Hw|Hw]; apply in_app_iff.
  - left. apply in_map_iff in Hw as (s & <- & Hs). apply in_map. apply in_str_tokens. apply in_str_tokens in Hs.
    eapply Permutation_in; [symmetry; exact P|right; exact Hs].
  - right. rewrite <- D. exact Hw.
Qed.

Lemma words_add ts x : seqs_in_range ts -> incl (words (add_token_unchecked ts x)) (word_of x :: words ts).
Proof.
  intros R w Hw. unfold words in *. apply in_app_iff in Hw as [Hw|Hw].
  - apply in_map_iff in Hw as (s & <- & Hs). apply in_str_tokens in Hs. cbn [add_token_unchecked tokens] in Hs.
    apply in_app_iff in Hs as [Hs|[Hs|[]]]; [right; apply in_app_iff; left; apply in_map, in_str_tokens; exact Hs|left; congruence].
  - right. apply in_app_iff; right. apply in_map_iff in Hw as (q & <- & Hq). cbn [add_token_unchecked sequences] in Hq.
    apply filter_In in Hq as (Hq & _). apply in_map_iff. exists q. split; [|exact Hq]. unfold denotes. f_equal.
    apply map_ext_in. intros j Hj. cbn [add_token_unchecked tokens]. symmetry. apply nth_error_app1. apply (R q j Hq Hj).
Qed.

Lemma unique_add ts x : seqs_in_range ts -> ~ In (Str x) (tokens ts) -> unique (words ts) -> unique (words (add_token_unchecked ts x)).
Proof.
  intros R Hx U. eapply unique_incl; [apply words_add; exact R|]. apply (unique_mark (Some (Str x))); [reflexivity| |exact U].
  intros v Hv Hi. apply Hx. unfold words in Hv. apply in_app_iff in Hv as [Hv|Hv]; apply in_map_iff in Hv as (s & <- & Hs).
  - destruct Hi as [Hi|[]]. injection Hi as <-. apply in_str_tokens. exact Hs.
  - cbn [denotes snd] in Hi. apply in_map_iff in Hi as (j & E & _). eapply nth_error_In; exact E.
Qed.

Lemma bits_with_decodable t p sp ts0 chosen ls : bits_fresh t p sp = Some ts0 -> decodable (bits_with ts0 chosen ls).
Proof.
  intros Hf. destruct (bits_fresh_inv _ _ _ _ Hf) as (base & k & enc & _ & _ & Hb & _).
  intros ps ps' text text' S S' E. unfold bits_with in *.
  destruct (C17_decodable _ _ _ _ _ (singles chosen ++ ls) text ps Hb S) as (toks & E1 & D1).
  destruct (C17_decodable _ _ _ _ _ (singles chosen ++ ls) text' ps' Hb S') as (toks' & E2 & D2).
  rewrite E, E2 in E1. assert (toks' = toks).
  { clear -E1. revert toks E1. induction toks' as [|a l IH]; intros [|b l'] E; try discriminate; [reflexivity|].
    cbn in E. injection E as -> E. f_equal. apply IH; exact E. }
  subst toks'. congruence.
Qed.

Lemma bytes_decodable ts : sequences ts = [] -> unique (words ts).
Proof.
  intros Hq l l' Hl Hl'. assert (G : forall l, incl l (words ts) -> exists m, l = map word_of m).
  { clear l l' Hl Hl'. induction l as [|w l IH]; intros Hl; [exists []; reflexivity|].
    destruct IH as (m & ->); [intros x Hx; apply Hl; right; exact Hx|]. specialize (Hl w (or_introl eq_refl)).
    unfold words in Hl. rewrite Hq, app_nil_r in Hl. apply in_map_iff in Hl as (s & <- & _). exists (s :: m). reflexivity. }
  destruct (G l Hl) as (m & ->), (G l' Hl') as (m' & ->). clear. revert m'. induction m as [|a m IH]; intros [|b m'] E; try discriminate; [reflexivity|].
  cbn [map concat snd word_of app] in E. injection E as <- E. cbn [map concat fst word_of]. f_equal. apply IH; exact E.
Qed.

Lemma visited_bytes_decodable p sp ts : visited Bytes p sp ts -> unique (words ts).
Proof.
  intros V. apply bytes_decodable. destruct (sequences ts) as [|q l] eqn:E; [reflexivity|]. exfalso.
  destruct (vi_seqs _ _ _ _ V (denotes ts q)) as (_ & []). apply in_map. rewrite E. left; reflexivity.
Qed.

Lemma huff_decodable p sp s n ts' : visited BytesHuff p sp ts' -> single_strings (st_token_set s) -> usable (st_token_set s) ->
  huff_bytes s n = Ret ts' -> unique (words ts').
Proof.
  intros V' Hs Hu E. apply (visited_words _ _ _ _ V').
  destruct (Nat.lt_ge_cases n 3) as [Hn|Hn]; [rewrite C37_small_budgets_panic in E by assumption; discriminate|].
  destruct (C36_huffman_encoding s n Hs (proj2 (C01_tokenizer_exists_iff_usable _) Hu) Hn) as (ts1 & E1 & _ & _ & _ & _ & _ & _ & _ & D).
  rewrite E in E1. injection E1 as <-. exact D.
Qed.

(** ** The invariant *)
Section Keep.
Variables (samples : list bstr) (init : option nat) (t : token_type) (p : processing) (sp : bool).
Variables (order : smap nat -> list bstr -> list bstr) (clock : nat -> bool) (n : nat).
Hypothesis Hsp : t = BytesHuff -> sp = true.
Hypothesis Hin : forall m l x, In x (order m l) -> In x l.

Definition coded (ts : tokenset) : Prop := visited t p sp ts /\ unique (words ts).

(** What is returned and saved, if there is a result. *)
Fixpoint keeps {A} (m : prog A) (Q : A -> Prop) : Prop :=
  match m with
  | PDone o => forall a, o = Ret a -> Q a
  | PAsk r k => forall a, fresh_answer samples init r a -> keeps (k a) Q
  | PSave ts k => coded ts /\ keeps k Q
  end.

Lemma keeps_bind {A B} (m : prog A) (f : A -> prog B) Q : keeps m (fun a => keeps (f a) Q) -> keeps (pbind m f) Q.
Proof.
  induction m as [o|r k IH|ts k IH]; cbn.
  - destruct o; intros H; [apply H; reflexivity|intros a E; discriminate..].
  - intros H a Ha. apply IH. auto.
  - intros (H1 & H2). auto.
Qed.

Lemma keeps_mono {A} (m : prog A) (Q Q' : A -> Prop) : (forall a, Q a -> Q' a) -> keeps m Q -> keeps m Q'.
Proof.
  intros H. induction m as [o|r k IH|ts k IH]; cbn; [auto| |].
  - intros H1 a Ha. apply IH. auto.
  - intros (H1 & H2). auto.
Qed.

Lemma keeps_done {A B} (o : outcome A) (f : A -> prog B) Q : (forall a, o = Ret a -> keeps (f a) Q) -> keeps (pbind (PDone o) f) Q.
Proof. intros H. apply keeps_bind. exact H. Qed.

Lemma keeps_ret {A} (a : A) (Q : A -> Prop) : Q a -> keeps (pret a) Q.
Proof. intros H b E. injection E as <-. exact H. Qed.

Definition known (a : stats) : Prop := coded (st_token_set a) /\ sized a.

Lemma known_answer r a : coded (requested r) -> fresh_answer samples init r a -> known a.
Proof.
  intros (V & U) F. destruct (fresh_answered samples init t p sp r a V F) as (A & _). pose proof (an_visited A) as V'.
  split; [split; [exact V'|]|apply (an_sized A)].
  destruct F as (ts' & s & Hs & Hf & Ea). destruct (visited_sort _ _ _ _ _ V Hs) as (V1 & _).
  destruct (sync_tallied ts' samples init s Hf (visited_range _ _ _ _ V1)) as (pss & T & _).
  assert (Es : st_token_set a = ts') by (rewrite Ea; destruct r; apply (ta_set _ _ _ _ T)).
  rewrite Es. eapply unique_incl; [apply words_sort; exact Hs|exact U].
Qed.

Lemma keeps_stats {B} ts (f : stats -> prog B) Q : coded ts -> (forall a, known a -> keeps (f a) Q) -> keeps (pbind (get_stats ts) f) Q.
Proof. intros C H a Ha. cbn. apply H. eapply (known_answer (NoPairs ts)); [exact C|exact Ha]. Qed.

Definition with_pairs (a : stats) : Prop :=
  exists pss, tallied (st_token_set a) samples pss a /\ pairs_tallied (st_token_set a) pss a.

Lemma keeps_pairs {B} ts (f : stats -> prog B) Q : coded ts ->
  (forall a, known a -> with_pairs a -> keeps (f a) Q) -> keeps (pbind (get_stats_with_pairs ts) f) Q.
Proof.
  intros C H a Ha. cbn. apply H; [eapply (known_answer (WithPairs ts)); [exact C|exact Ha]|].
  destruct (fresh_answered samples init t p sp (WithPairs ts) a (proj1 C) Ha) as (_ & P). apply (P ts). reflexivity.
Qed.

Lemma bo_coded s m ts' : known s -> optimizer_for t s m = Ret ts' -> coded ts'.
Proof.
  intros ((V & U) & Z) E.
  assert (B : is_bits t -> simple_bytes s m = Ret ts' -> coded ts').
  { intros Hb E1. destruct (vi_shaped _ _ _ _ V) as (ss & S). pose proof (sh_fits _ _ S) as F. rewrite (vi_type _ _ _ _ V) in F.
    assert (R : lo t <= m <= hi t).
    { destruct (Nat.lt_ge_cases m (n_ext_tokens (st_token_set s))) as [H|H1];
      [|destruct (Nat.lt_ge_cases (n_ext_tokens (st_token_set s) + 256) m) as [H|H2]].
      3: { destruct Hb as [->|[->| ->]]; cbn [fits_type lo hi] in *; lia. }
      all: exfalso; rewrite C35_otherwise_panics in E1; [discriminate| |exact Z| |lia];
        [apply C01_tokenizer_exists_iff_usable, (vi_usable _ _ _ _ V)|rewrite (vi_type _ _ _ _ V); exact Hb]. }
    destruct (simple_bytes_visited t p sp s m Hb Z V R) as (ts0 & Hf & E2 & V' & _). rewrite E1 in E2. injection E2 as ->.
    split; [exact V'|]. eapply visited_words; [exact V'|]. eapply bits_with_decodable; exact Hf. }
  unfold is_bits in B. destruct t eqn:Et; cbn [optimizer_for] in E; [apply B; auto..| |].
  - injection E as <-. split; [rewrite Et; exact V|exact U].
  - destruct (Nat.lt_ge_cases m 3) as [Hm|Hm].
    { rewrite C37_small_budgets_panic in E; [discriminate|apply (visited_single _ _ _ _ V)|exact Hm]. }
    destruct (huff_bytes_visited p sp s m (Hsp eq_refl) (visited_single _ _ _ _ V) (vi_usable _ _ _ _ V) (vi_proc _ _ _ _ V) Hm) as (ts1 & E1 & V' & _).
    rewrite E in E1. injection E1 as <-. split; [rewrite Et; exact V'|]. eapply huff_decodable; [exact V'|apply (visited_single _ _ _ _ V)|apply (vi_usable _ _ _ _ V)|exact E].
Qed.

Lemma bpe_coded s ts' g : known s -> with_pairs s -> add_token_bpe s = Ret (Some (ts', g)) -> coded ts'.
Proof.
  intros ((V & U) & _) (pss & T & P) E. pose proof (vi_usable _ _ _ _ V) as Hu.
  destruct (add_token_bpe_ok _ _ _ _ T P Hu) as [(E1 & _)|(x & c & E1 & (k & Hk) & _)]; rewrite E in E1; [discriminate|].
  injection E1 as -> _. destruct (candidate_new _ _ _ _ T Hu x k Hk) as (Hl & Hn & _).
  split; [|apply unique_add; [apply (visited_range _ _ _ _ V)|exact Hn|exact U]].
  apply (visited_add _ _ _ _ x V Hl). intros Hi. unfold strings in Hi. fold (str_tokens (st_token_set s)) in Hi. apply in_app_iff in Hi as [Hi|Hi].
  - apply in_str_tokens in Hi. contradiction.
  - apply in_map_iff in Hi as (q & Eq & Hq). pose proof (visited_single _ _ _ _ V q Hq) as H1. rewrite Eq in H1. lia.
Qed.

Definition maybe_coded (o : option tokenset) : Prop := forall ts, o = Some ts -> coded ts.
Definition maybe_known (o : option stats) : Prop := forall s, o = Some s -> known s.

Lemma opt_add_token_keeps ts : coded ts -> keeps (opt_add_token (optimizer_for t) ts) maybe_coded.
Proof.
  intros C. unfold opt_add_token. apply keeps_pairs; [exact C|]. intros s K W.
  apply keeps_done. intros r1 E1. apply keeps_done. intros r2 E2. apply keeps_ret.
  assert (H1 : forall ts' g, r1 = Some (ts', g) -> coded ts').
  { intros ts' g ->. unfold add_byte in E1. destruct (count_tokens_in_bytes _ _) as [c| |]; try discriminate. cbn [bind] in E1.
    destruct (checked_sub _ _) as [m| |]; try discriminate. cbn [bind] in E1.
    destruct (optimizer_for t s (m + 1)) as [new| |] eqn:Eb; try discriminate. cbn [bind] in E1.
    destruct (ntokens new =? _); [discriminate|]. destruct (count_tokens_in_bytes new s) as [c'| |]; try discriminate. cbn [bind] in E1.
    injection E1 as <- _. eapply bo_coded; [exact K|exact Eb]. }
  assert (H2 : forall ts' g, r2 = Some (ts', g) -> coded ts').
  { intros ts' g ->. eapply bpe_coded; [exact K|exact W|exact E2]. }
  intros ts' E. destruct r1 as [[t1 g1]|], r2 as [[t2 g2]|]; try discriminate.
  - destruct (Z.of_nat g2 <? g1)%Z; injection E as <-; [eapply H1|eapply H2]; reflexivity.
  - injection E as <-. eapply H1; reflexivity.
  - injection E as <-. eapply H2; reflexivity.
Qed.

Lemma trade_byte_keeps ts s : coded ts -> known s -> keeps (trade_byte (optimizer_for t) ts n s) maybe_known.
Proof.
  intros C K. unfold trade_byte. apply keeps_done. intros m _. destruct (_ <? m); [|apply keeps_ret; discriminate].
  apply keeps_done. intros m1 _. apply keeps_done. intros new En. apply keeps_done. intros n1 _. apply keeps_done. intros _ _.
  pose proof (bo_coded _ _ _ K En) as Cn. apply keeps_pairs; [exact Cn|]. intros s1 K1 W1. apply keeps_done. intros [[t2 g]|] E2; [|apply keeps_ret; discriminate].
  apply keeps_stats; [eapply bpe_coded; [exact K1|exact W1|exact E2]|]. intros a Ka. apply keeps_ret.
  destruct (_ <? _); [|discriminate]. intros s' E. injection E as <-. exact Ka.
Qed.

Lemma replace_loop_keeps ts s : coded ts -> forall l rc, (forall x, In x l -> In (Str x) (tokens ts) /\ 1 < length x) ->
  keeps (replace_loop (optimizer_for t) ts n s l rc) (fun r => maybe_known (fst r)).
Proof.
  intros C. induction l as [|x l IH]; intros rc Hl; cbn [replace_loop]; [apply keeps_ret; discriminate|].
  destruct (Hl x (or_introl eq_refl)) as (Hx & Hlen).
  destruct (visited_remove t p sp ts x (proj1 C) Hx Hlen) as (i & ts1 & Ef & Er & V1 & _).
  assert (C1 : coded ts1) by (split; [exact V1|eapply unique_incl; [eapply words_remove; exact Er|apply C]]).
  apply keeps_done. intros j Ej. rewrite Ef in Ej. cbn in Ej. injection Ej as <-.
  apply keeps_done. intros new En. rewrite Er in En. injection En as <-.
  apply keeps_done. intros n1 _. apply keeps_done. intros _ _. apply keeps_bind.
  eapply keeps_mono; [|apply opt_add_token_keeps; exact C1]. intros [ts2|] H; [|apply IH; intros y Hy; apply Hl; right; exact Hy].
  apply keeps_stats; [apply H; reflexivity|]. intros a Ka. destruct (_ <? _).
  - apply keeps_ret. intros s' E. injection E as <-. exact Ka.
  - apply IH. intros y Hy. apply Hl. right; exact Hy.
Qed.

Lemma remove_add_keeps ts rc : coded ts -> keeps (remove_add_token (optimizer_for t) order ts n rc) (fun r => maybe_known (fst r)).
Proof.
  intros C. unfold remove_add_token. destruct (ntokens ts <? n).
  - apply keeps_bind. eapply keeps_mono; [|apply opt_add_token_keeps; exact C]. intros [ts2|] H; [|apply keeps_ret; discriminate].
    apply keeps_stats; [apply H; reflexivity|]. intros a Ka. apply keeps_ret. intros s' E. injection E as <-. exact Ka.
  - apply keeps_done. intros _ _. apply keeps_stats; [exact C|]. intros s Ks. apply keeps_bind.
    eapply keeps_mono; [|apply (trade_byte_keeps ts s C Ks)]. intros [s'|] H; [apply keeps_ret; exact H|].
    apply replace_loop_keeps; [exact C|]. intros x Hx. apply Hin in Hx. apply in_flat_map in Hx as ([y|d] & Hy & Hx); [|destruct Hx].
    destruct (Nat.ltb_spec 1 (length y)) as [Hlt|]; [|destruct Hx]. destruct Hx as [<-|[]]. auto.
Qed.

Lemma step_keeps ts rc : coded ts -> keeps (optimization_step (optimizer_for t) order ts n rc) (fun r => maybe_coded (fst r)).
Proof.
  intros C. unfold optimization_step. apply keeps_stats; [exact C|]. intros s Ks. apply keeps_done. intros m _.
  apply keeps_done. intros new En. apply keeps_stats; [eapply bo_coded; [exact Ks|exact En]|]. intros a Ka. destruct (_ <? _).
  - apply keeps_ret. intros ts' E. injection E as <-. apply Ka.
  - apply keeps_bind. eapply keeps_mono; [|apply remove_add_keeps; exact C]. intros [[s'|] rc'] H.
    + apply keeps_done. intros _ _. apply keeps_ret. intros ts' E. injection E as <-. apply (H s'). reflexivity.
    + apply keeps_ret. discriminate.
Qed.

Lemma loop_keeps : forall fuel round ts rc, coded ts -> keeps (optimize_loop (optimizer_for t) order clock fuel round ts n rc) coded.
Proof.
  induction fuel as [|fuel IH]; intros round ts rc C; cbn [optimize_loop]; [intros a E; discriminate|].
  apply keeps_bind. eapply keeps_mono; [|apply step_keeps; exact C]. intros [[new|] rc'] H.
  - assert (Cn : coded new) by (apply H; reflexivity). destruct (clock round); [split; [exact Cn|]|]; apply IH; exact Cn.
  - apply keeps_ret. exact C.
Qed.

Lemma impl_keeps fuel ts : coded ts -> keeps (optimize_impl (optimizer_for t) order clock fuel ts n) known.
Proof.
  intros C. unfold optimize_impl. apply keeps_stats; [exact C|]. intros _ _. apply keeps_bind.
  eapply keeps_mono; [|apply loop_keeps; exact C]. intros ts1 C1. apply keeps_done. intros ts2 E2.
  assert (C2 : coded ts2). { split; [apply (visited_sort _ _ _ _ _ (proj1 C1) E2)|eapply unique_incl; [apply words_sort; exact E2|apply C1]]. }
  intros a Ha. cbn. apply keeps_ret. eapply (known_answer (NoPairs ts2)); [exact C2|exact Ha].
Qed.
End Keep.

Lemma ok_keeps {A} samples init t p sp (m : prog A) S (Q Q' : A -> Prop) :
  ok samples init m S Q -> keeps samples init t p sp m Q' -> ok samples init m (coded t p sp) Q'.
Proof.
  induction m as [o|r k IH|ts k IH]; cbn.
  - intros (a & E & H) H'. eauto.
  - intros (Ha & H) H'. split; [exact Ha|]. auto.
  - intros (H1 & H2) (H3 & H4). auto.
Qed.

Lemma first_coded p t ts : first_set p t = Some ts -> coded t p true ts.
Proof.
  intros H. destruct (first_visited p t ts H) as (V & _). split; [exact V|]. destruct t; cbn [first_set] in H.
  1-3: eapply visited_words; [exact V|]; change ts with (bits_with ts [] []).
  - apply (bits_with_decodable Bits1 p true). exact H.
  - apply (bits_with_decodable Bits2 p true). exact H.
  - apply (bits_with_decodable Bits4 p true). exact H.
  - eapply visited_bytes_decodable; exact V.
  - discriminate.
Qed.

(** ** C85 *)
Theorem C85_optimized_sets_decodable : forall threads total samples init order clock n p t pre rounds m,
  1 <= threads -> ~ In [] samples -> shuffles order -> supported t n -> good_start n p t pre ->
  (forall ts, pre = Some ts -> decodable ts) -> round_bound samples n <= rounds ->
  optimizing threads total samples init order clock n p t pre rounds m ->
  (forall ts, In ts (m_saved m) -> decodable ts) /\ (forall s, returned m s -> decodable (st_token_set s)).
Proof.
  intros threads total samples init order clock n p t pre rounds m Ht Hne Ho Hs Hp Hd Hr Hm.
  assert (Hin : forall m l x, In x (order m l) -> In x l) by (intros m' l x; apply Permutation_in, Ho).
  pose proof (optimize_ok samples init order clock n p t pre rounds Ho Hs Hp Hr) as O.
  assert (G : exists sp, keeps samples init t p sp (optimize_tokenset order clock rounds n p t pre) (known t p sp)).
  { unfold optimize_tokenset. destruct pre as [ts|].
    - destruct (good_start_flag _ _ _ _ Hp) as (sp & V & Hsp & _). exists sp. cbn [initial_set]. apply keeps_done. intros ts0 E. injection E as <-.
      apply impl_keeps; [exact Hsp|exact Hin|]. split; [exact V|]. eapply visited_words; [exact V|]. apply Hd. reflexivity.
    - exists true. apply keeps_bind.
      assert (K : forall ts, coded t p true ts -> keeps samples init t p true (optimize_impl (optimizer_for t) order clock rounds ts n) (known t p true))
        by (intros ts C; apply impl_keeps; auto).
      assert (F : forall ts, first_set p t = Some ts -> keeps samples init t p true (pret ts) (fun a => keeps samples init t p true (optimize_impl (optimizer_for t) order clock rounds a n) (known t p true))).
      { intros ts E. apply keeps_ret, K, first_coded. exact E. }
      destruct (supported_bounds _ _ Hs) as (Hlo & _).
      destruct t; [apply F; reflexivity..|]. clear F. unfold initial_set.
      destruct (visited_bytes p) as (V & _). revert V. generalize (new_bytes p). intros tb V.
      intros s Fs. cbn. intros ts E. apply K.
      destruct (fresh_answered samples init Bytes p true (NoPairs tb) s V Fs) as (A & _). pose proof (an_visited A) as V1.
      destruct (huff_bytes_visited p true s n eq_refl (visited_single _ _ _ _ V1) (vi_usable _ _ _ _ V1) (vi_proc _ _ _ _ V1) Hlo) as (ts1 & E1 & V2 & _).
      rewrite E in E1. injection E1 as <-. split; [exact V2|]. eapply huff_decodable; [exact V2|apply (visited_single _ _ _ _ V1)|apply (vi_usable _ _ _ _ V1)|exact E]. }
  destruct G as (sp & G). destruct (ok_sound threads total samples init Ht Hne _ _ _ (ok_keeps _ _ _ _ _ _ _ _ _ O G) m Hm) as (H1 & H2).
  split; [intros ts Hi; apply words_decodable, (H1 ts Hi)|]. intros s E. unfold returned in E.
  destruct H2 as [(a & E' & H)|(m' & H)].
  - rewrite E in E'. injection E' as <-. apply words_decodable, H.
  - destruct m as [c sv pr]; cbn in E; subst pr. inversion H.
Qed.

(** The hypotheses are met from scratch and with a starting set, and a set with two
    sequences for the same tokens is not decodable. *)
Example C85_hypotheses_met :
  good_start 300 Raw Bytes (Some (new_bytes Raw)) /\ decodable (new_bytes Raw) /\
  (exists m s, optimizing 4 3 [[x61; x62]; [x61]] None (fun _ l => l) (fun _ => true) 300 Raw Bytes (Some (new_bytes Raw)) (round_bound [[x61; x62]; [x61]] 300) m /\ returned m s) /\
  ~ decodable (mkTS 2 Bits1 Raw true [Ext x00; Ext x01] [mkSeq [x61] [0; 1]; mkSeq [x62] [0; 1]]).
Proof.
  assert (Hn : ~ In [] [[x61; x62]; [x61]]) by (cbn; intuition discriminate).
  assert (Hs : shuffles (fun _ l => l)) by (intros m l; reflexivity).
  assert (Sup : supported Bytes 300) by (split; [apply Nat.leb_le; reflexivity|exact I]).
  assert (G : good_start 300 Raw Bytes (Some (new_bytes Raw))).
  { destruct (visited_bytes Raw) as (V & B & L). exists true. split; [exact V|]. rewrite base_ntokens, B, L. apply Nat.leb_le. reflexivity. }
  split; [exact G|]. split; [|split].
  - apply words_decodable, (visited_bytes_decodable Raw true), visited_bytes.
  - revert G. generalize (Some (new_bytes Raw)). intros pre G.
    refine (proj1 (C43_optimization_never_panics_partial 4 3 [[x61; x62]; [x61]] None (fun _ l => l) (fun _ => true) 300 Raw Bytes pre _ _ Hn Hs Sup G (le_n _))). lia.
  - intros D. assert (E : [x61] ++ [] = [x62] ++ []); [|discriminate].
    eapply (D [PSeq 0] [PSeq 1]); [constructor; [reflexivity|constructor]..|reflexivity].
Qed.
