(** * Properties C35-C38: choosing the single-byte tokens. *)
From Verif Require Import Base BaseLemmas TokenSetModel TokenizerModel TokSpec SortLemmas
  TokenSetProof TokenSetProof2 TokenizerProof1 TokenizerTheory PropTokenizer PropTokenSet PropJson Shaped
  OptBytesModel OptBytesProof OptBytesProof2 OptBytesProof3 OptBytesProof4.

(** ** Specification *)

(** [used s b c]: the statistics count [c] uses of the one-byte string [b],
    as a token or as a sequence. *)
Definition used (s : stats) (b : byte) (c : nat) : Prop :=
  (exists i, nth_error (tokens (st_token_set s)) i = Some (Str [b]) /\ nth_error (token_counts s) i = Some c) \/
  (exists i q, nth_error (sequences (st_token_set s)) i = Some q /\ seq_string q = [b] /\
               nth_error (seq_counts s) i = Some c).

(** Statistics with one counter per token and one per sequence. *)
Definition full_stats (s : stats) : Prop :=
  length (token_counts s) = length (tokens (st_token_set s)) /\
  length (seq_counts s) = length (sequences (st_token_set s)).

Lemma used_uses s b c : In (b, c) (byte_uses s) <-> used s b c.
Proof.
  unfold byte_uses, used. rewrite in_app_iff, in_token_uses, in_seq_uses. reflexivity.
Qed.

(** ** C38: interval splitting *)
Theorem C38_splitting_into_intervals : forall counts parts,
  1 <= parts -> StronglySorted (fun a b => b2n (fst a) < b2n (fst b)) counts ->
  exists splits groups, optimize_splits counts parts = Ret splits /\
    concat groups = counts /\ length groups = Nat.min parts (length counts) /\
    Forall2 (fun sp g =>
      (exists c r, g = (cs_lo sp, c) :: r) /\ In (cs_top sp, cs_top_count sp) g /\
      forall b c, In (b, c) g -> c <= cs_top_count sp) splits groups.
Proof.
  intros counts parts Hp Hs. destruct (optimize_splits_ok counts parts Hp Hs) as (sp & g & E & H1 & H2 & H3).
  exists sp, g. split; [exact E|]. split; [exact H1|]. split; [exact H2|].
  eapply Forall2_impl; [|exact H3]. intros x y (A & B & C). split; [exact A|]. split; [exact B|].
  intros b c Hi. apply (C (b, c) Hi).
Qed.

Theorem C38_zero_parts_panic : forall counts, counts <> [] -> optimize_splits counts 0 = Panic.
Proof.
  intros counts Hne. unfold optimize_splits.
  assert (G : forall fuel nodes, nodes <> [] -> length nodes <= fuel -> merge_nodes fuel 0 nodes = Panic).
  { induction fuel as [|fuel IH]; intros nodes Hn Hl; [destruct nodes; [congruence|cbn in Hl; lia]|].
    cbn [merge_nodes]. replace (0 <? length nodes) with true by (symmetry; apply Nat.ltb_lt; destruct nodes; [congruence|cbn; lia]).
    destruct nodes as [|a [|b nodes]]; [congruence|reflexivity|].
    destruct (best_pair_ok (a :: b :: nodes)) as (c & i & E & Hi); [cbn; lia|]. rewrite E. cbn [bind unwrap].
    remember (a :: b :: nodes) as l eqn:El.
    destruct (split_at l i) as (u & x & v & E1 & Hu); [lia|].
    destruct v as [|y v]; [rewrite E1, app_length in Hi; cbn in Hi; lia|].
    assert (E2 : idx l (i + 1) = Ret y).
    { rewrite E1. change (u ++ x :: y :: v) with (u ++ [x] ++ y :: v). rewrite app_assoc.
      apply idx_mid. rewrite app_length; cbn; lia. }
    assert (E3 : vremove l (i + 1) = Ret (u ++ x :: v)).
    { rewrite E1. change (u ++ x :: y :: v) with (u ++ [x] ++ y :: v). rewrite app_assoc.
      replace (i + 1) with (length (u ++ [x])) by (rewrite app_length; cbn; lia).
      rewrite vremove_mid, <- app_assoc. reflexivity. }
    rewrite E2, E3. cbn [bind]. rewrite (idx_mid u v x i) by (symmetry; exact Hu). cbn [bind].
    unfold idx_upd. rewrite app_length. cbn [length].
    replace (i <? length u + S (length v)) with true by (symmetry; apply Nat.ltb_lt; lia). cbn [bind].
    rewrite <- Hu, upd_mid. apply IH; [destruct u; discriminate|].
    rewrite E1 in Hl. rewrite app_length in *. cbn in *. lia. }
  rewrite G; [reflexivity| |rewrite map_length; lia]. destruct counts; [congruence|discriminate].
Qed.

(** 5 bytes into 2 intervals; "b" and "d" are the most frequent ones. *)
Example C38_example :
  optimize_splits [(x61, 3); (x62, 9); (x63, 1); (x64, 8); (x65, 2)] 2 =
  Ret [mkSplit x61 x62 9; mkSplit x63 x64 8].
Proof. reflexivity. Qed.

(** ** C35: the byte tokens of bits sets *)
Theorem C35_byte_selection : forall s ss n,
  let ts := st_token_set s in
  shaped ts ss -> (exists tk, tokenizer_new ts = Ret tk) -> full_stats s ->
  ts_type ts = Bits1 \/ ts_type ts = Bits2 \/ ts_type ts = Bits4 ->
  n <= 256 ->
  exists ts' chosen, simple_bytes s (n_ext_tokens ts + n) = Ret ts' /\
    length chosen = n /\ NoDup chosen /\
    (forall b c b' c', In b chosen -> ~ In b' chosen -> used s b c -> used s b' c' -> c' <= c) /\
    shaped ts' (map (fun b => [b]) chosen ++ filter (fun x => 1 <? length x) ss) /\
    (exists tk', tokenizer_new ts' = Ret tk') /\
    ts_type ts' = ts_type ts /\ ts_processing ts' = ts_processing ts /\
    split_paragraphs ts' = split_paragraphs ts /\
    (forall fresh base k, bit_fallback (ts_processing ts) (split_paragraphs ts) fresh base k ->
       ts_type fresh = ts_type ts ->
       forall q, In q (sequences ts') <-> In q (sequences fresh) /\ forall b, In b chosen -> seq_string q <> [b]).
Proof.
  intros s ss n ts S Htk Hz Ht Hn. unfold ts in *. clear ts. rewrite C01_tokenizer_exists_iff_usable in Htk.
  assert (Hf : exists ts0, bits_fresh (ts_type (st_token_set s)) (ts_processing (st_token_set s)) (split_paragraphs (st_token_set s)) = Some ts0).
  { destruct Ht as [Ht|[Ht|Ht]]; rewrite Ht; eexists; reflexivity. }
  destruct Hf as (ts0 & Hf).
  assert (Hbits : ts_type (st_token_set s) = Bits1 \/ ts_type (st_token_set s) = Bits2 \/ ts_type (st_token_set s) = Bits4) by exact Ht.
  rewrite (simple_bytes_eq s _ ts0 Hz Htk Hf).
  rewrite (proj2 (Nat.leb_le _ _)), (proj2 (Nat.leb_le _ _)) by lia. cbn [andb].
  replace (n_ext_tokens (st_token_set s) + n - n_ext_tokens (st_token_set s)) with n by lia.
  rewrite (str_tokens_shaped _ _ (sh_tokens _ _ S)).
  set (chosen := firstn n (ranked s)).
  exists (fold_left add_token_unchecked (singles chosen ++ longs ss) ts0), chosen.
  assert (Hnc : NoDup chosen) by (apply NoDup_firstn, ranked_nodup).
  assert (Hnd : NoDup (singles chosen ++ longs ss)) by (apply byte_long_nodup; [exact Hnc|apply (sh_nodup _ _ S)]).
  assert (Hne : ~ In [] (singles chosen ++ longs ss)) by apply byte_long_nonempty.
  destruct (bits_fresh_inv _ _ _ _ Hf) as (base & k & enc & E0 & Henc & Hbf & Hfit & Hb16 & Hk & _).
  assert (S0 : shaped ts0 []) by (rewrite E0; eapply shaped_bits_set; eauto).
  assert (U0 : usable ts0) by (rewrite E0; apply usable_bits_set).
  assert (T0 : ts_type ts0 = ts_type (st_token_set s) /\ ts_processing ts0 = ts_processing (st_token_set s) /\
               split_paragraphs ts0 = split_paragraphs (st_token_set s)) by (rewrite E0; auto).
  split; [reflexivity|]. split; [unfold chosen; rewrite firstn_length, ranked_length; lia|].
  split; [exact Hnc|]. split; [|split; [|split; [|split; [|split; [|split]]]]].
  - intros b c b' c' Hb Hb' Hc Hc'. apply used_uses in Hc, Hc'.
    apply (uses_eq s b c Hz Htk) in Hc. apply (uses_eq s b' c' Hz Htk) in Hc'. subst c c'.
    pose proof (ranked_sorted s) as Hs. rewrite <- (firstn_skipn n (ranked s)) in Hs.
    apply SS_app in Hs as (_ & _ & Hs). apply Hs; [exact Hb|].
    assert (Hi : In b' (ranked s)) by (eapply Permutation_in; [apply Permutation_sym, ranked_perm|apply in_all_bytes]).
    rewrite <- (firstn_skipn n (ranked s)) in Hi. apply in_app_iff in Hi as [Hi|Hi]; [contradiction|exact Hi].
  - apply (shaped_fold (singles chosen ++ longs ss) ts0 [] S0 Hnd Hne). intros x _ [].
  - rewrite C01_tokenizer_exists_iff_usable. apply usable_fold; auto.
    intros x _. rewrite E0, str_tokens_bits_set. intros [].
  - rewrite fold_add_unchecked; cbn [ts_type]. apply T0.
  - rewrite fold_add_unchecked; cbn [ts_processing]. apply T0.
  - rewrite fold_add_unchecked; cbn [split_paragraphs]. apply T0.
  - intros fresh base' k' Hfr Htf q. rewrite fold_add_unchecked; cbn [sequences].
    assert (Efr : fresh = ts0).
    { destruct Hfr; cbn [bits_fresh] in Hf;
        revert Htf; rewrite ?new_bits1_eq, ?new_bits2_eq, ?new_bits4_eq; unfold bits_set at 1; cbn [ts_type];
        intros Htf; rewrite <- Htf in Hf; cbn [bits_fresh] in Hf;
        rewrite <- ?new_bits1_eq, <- ?new_bits2_eq, <- ?new_bits4_eq; congruence. }
    subst fresh. rewrite filter_In, negb_true_iff, <- not_true_iff_false, in_strs_true.
    rewrite in_app_iff, in_map_iff, in_longs. split.
    + intros (Hq & H). split; [exact Hq|]. intros b Hb E. apply H. left. exists b. auto.
    + intros (Hq & H). split; [exact Hq|]. intros [(b & E & Hb)|(_ & Hl)]; [apply (H b Hb); auto|].
      assert (Hone : length (seq_string q) = 1).
      { rewrite E0 in Hq. eapply seqs_two; exact Hq. }
      lia.
Qed.

(** Outside the range the program panics. *)
Theorem C35_otherwise_panics : forall s n,
  let ts := st_token_set s in
  (exists tk, tokenizer_new ts = Ret tk) -> full_stats s ->
  ts_type ts = Bits1 \/ ts_type ts = Bits2 \/ ts_type ts = Bits4 ->
  n < n_ext_tokens ts \/ n_ext_tokens ts + 256 < n -> simple_bytes s n = Panic.
Proof.
  intros s n ts Htk Hz Ht Hn. unfold ts in *. clear ts. rewrite C01_tokenizer_exists_iff_usable in Htk.
  assert (Hf : exists ts0, bits_fresh (ts_type (st_token_set s)) (ts_processing (st_token_set s)) (split_paragraphs (st_token_set s)) = Some ts0).
  { destruct Ht as [Ht|[Ht|Ht]]; rewrite Ht; eexists; reflexivity. }
  destruct Hf as (ts0 & Hf). rewrite (simple_bytes_eq s _ ts0 Hz Htk Hf).
  destruct (Nat.leb_spec (n_ext_tokens (st_token_set s)) n); [|reflexivity].
  destruct (Nat.leb_spec n (n_ext_tokens (st_token_set s) + 256)); [lia|reflexivity].
Qed.

(** ** C36: the byteshuff encoding *)
Lemma huff_stream_unique n_ext p tops ls qs :
  huff_codes n_ext tops qs all_bytes ->
  let ts := huff_set n_ext p (singles tops ++ ls) qs in
  forall ps text, segments ts ps text -> forall ps' text', segments ts ps' text' ->
  stream ts ps = stream ts ps' -> text = text'.
Proof.
  intros Hc ts.
  assert (Htok : forall i s, nth_error (tokens ts) i = Some (Str s) -> n_ext <= i).
  { intros i s H. destruct (Nat.lt_ge_cases i n_ext) as [Hi|Hi]; [|exact Hi]. exfalso.
    unfold ts, huff_set, ext_tokens in H; cbn [tokens] in H.
    rewrite nth_error_app1 in H by (rewrite map_length, seq_length; exact Hi).
    rewrite nth_error_map in H. destruct (nth_error (seq 0 n_ext) i); discriminate. }
  (* every piece is a head token followed by extension tokens *)
  assert (Hform : forall pc x, piece_string ts pc = Some x ->
    exists h enc, piece_tokens ts pc = h :: enc /\ n_ext <= h /\ (forall d, In d enc -> d < n_ext)).
  { intros [i|i] x H; cbn [piece_string piece_tokens] in *.
    - destruct (nth_error (tokens ts) i) as [[y|]|] eqn:E; try discriminate.
      exists i, []. split; [reflexivity|]. split; [eapply Htok; exact E|]. intros d [].
    - destruct (nth_error (sequences ts) i) as [q|] eqn:E; [|discriminate].
      apply nth_error_In in E. destruct (hc_form _ _ _ _ Hc q E) as (b & h & enc & -> & Hh & _ & Hd).
      exists h, enc. split; [reflexivity|]. split; [lia|exact Hd]. }
  assert (Hinj : forall pc pc' x x', piece_string ts pc = Some x -> piece_string ts pc' = Some x' ->
    piece_tokens ts pc = piece_tokens ts pc' -> x = x').
  { intros pc pc' x x' H H' E.
    destruct pc as [i|i], pc' as [j|j]; cbn [piece_string piece_tokens] in *.
    - injection E as ->. congruence.
    - destruct (nth_error (sequences ts) j) as [q|] eqn:Ej; [|discriminate].
      apply nth_error_In in Ej. destruct (hc_form _ _ _ _ Hc q Ej) as (b & h & enc & -> & _ & He & _).
      cbn in E. injection E as _ E. congruence.
    - destruct (nth_error (sequences ts) i) as [q|] eqn:Ej; [|discriminate].
      apply nth_error_In in Ej. destruct (hc_form _ _ _ _ Hc q Ej) as (b & h & enc & -> & _ & He & _).
      cbn in E. injection E as _ E. congruence.
    - destruct (nth_error (sequences ts) i) as [q|] eqn:Ei; [|discriminate].
      destruct (nth_error (sequences ts) j) as [q'|] eqn:Ej; [|discriminate].
      assert (Eij : i = j).
      { eapply (NoDup_nth_error (map seq_tokens qs)); [apply (hc_distinct _ _ _ _ Hc)| |].
        - rewrite map_length. apply nth_error_Some. cbn [ts huff_set sequences] in Ei. congruence.
        - rewrite !nth_error_map. cbn [ts huff_set sequences] in Ei, Ej. rewrite Ei, Ej. cbn. congruence. }
      subst j. congruence. }
  (* the rest of the stream is empty or starts with a head token *)
  assert (Hhead : forall ps text, segments ts ps text -> stream ts ps = [] \/ exists h r, stream ts ps = h :: r /\ n_ext <= h).
  { intros ps text H. inversion H as [|pc ps0 x r Hp _]; subst; [left; reflexivity|]. right.
    destruct (Hform _ _ Hp) as (h & enc & E & Hh & _). exists h, (enc ++ stream ts ps0).
    unfold stream; cbn. rewrite E. auto. }
  assert (Hcut : forall e e' r r', (forall d, In d e -> d < n_ext) -> (forall d, In d e' -> d < n_ext) ->
     (r = [] \/ exists h t, r = h :: t /\ n_ext <= h) -> (r' = [] \/ exists h t, r' = h :: t /\ n_ext <= h) ->
     e ++ r = e' ++ r' -> e = e' /\ r = r').
  { induction e as [|d e IH]; intros [|d' e'] r r' He He' Hr Hr' E; cbn in E.
    - auto.
    - exfalso. specialize (He' d' (or_introl eq_refl)). destruct Hr as [->|(h & t & -> & Hh)]; [discriminate|].
      injection E as -> _. lia.
    - exfalso. specialize (He d (or_introl eq_refl)). destruct Hr' as [->|(h & t & -> & Hh)]; [discriminate|].
      injection E as -> _. lia.
    - injection E as -> E. destruct (IH e' r r') as (-> & ->); auto.
      + intros x Hx; apply He; right; exact Hx.
      + intros x Hx; apply He'; right; exact Hx. }
  induction 1 as [|pc ps x r Hp Hs IH]; intros ps' text' H' E.
  - inversion H' as [|pc' ps0 x' r' Hp' Hs']; subst; [reflexivity|]. exfalso.
    destruct (Hform _ _ Hp') as (h & enc & Et & _). unfold stream in E; cbn in E. rewrite Et in E. discriminate.
  - inversion H' as [|pc' ps0 x' r' Hp' Hs']; subst.
    + exfalso. destruct (Hform _ _ Hp) as (h & enc & Et & _). unfold stream in E; cbn in E. rewrite Et in E. discriminate.
    + destruct (Hform _ _ Hp) as (h & enc & Et & Hh & Hd). destruct (Hform _ _ Hp') as (h' & enc' & Et' & Hh' & Hd').
      unfold stream in E; cbn [flat_map] in E. rewrite Et, Et' in E. cbn [app] in E. injection E as -> E.
      fold (stream ts ps) (stream ts ps0) in E.
      destruct (Hcut enc enc' (stream ts ps) (stream ts ps0) Hd Hd' (Hhead _ _ Hs) (Hhead _ _ Hs') E) as (-> & E2).
      f_equal; [eapply Hinj; [exact Hp|exact Hp'|congruence]|]. eapply IH; [exact Hs'|exact E2].
Qed.

Lemma huff_set_usable n_ext p tops ls qs : huff_codes n_ext tops qs all_bytes ->
  NoDup ls -> (forall s, In s ls -> 1 < length s) -> usable (huff_set n_ext p (singles tops ++ ls) qs).
Proof.
  intros Hc Hn Hl.
  assert (P : Permutation (strings (huff_set n_ext p (singles tops ++ ls) qs)) (singles all_bytes ++ ls)).
  { unfold strings, huff_set; cbn [tokens sequences]. rewrite flat_map_app, str_of_ext. cbn [app].
    replace (flat_map _ (map Str (singles tops ++ ls))) with (singles tops ++ ls).
    - rewrite <- (hc_bytes _ _ _ _ Hc), <- !app_assoc. apply Permutation_app_head, Permutation_app_comm.
    - generalize (singles tops ++ ls). clear. induction l; cbn; congruence. }
  split; [|split].
  - eapply Permutation_NoDup; [symmetry; exact P|]. apply NoDup_app_iff. split; [apply NoDup_single_bytes|].
    split; [exact Hn|]. intros x Hx Hy. apply in_map_iff in Hx as (b & <- & _). specialize (Hl _ Hy). cbn in Hl. lia.
  - intros Hi. eapply Permutation_in in Hi; [|exact P]. apply in_app_iff in Hi as [Hi|Hi].
    + apply in_map_iff in Hi as (b & E & _). discriminate.
    + specialize (Hl _ Hi). cbn in Hl. lia.
  - intros b. eapply Permutation_in; [symmetry; exact P|]. apply in_app_iff; left. apply in_map_iff.
    exists b. split; [reflexivity|apply in_all_bytes].
Qed.

Lemma huff_set_nth_top n_ext p tops ls qs h : n_ext <= h < n_ext + length tops ->
  exists c, nth_error (tokens (huff_set n_ext p (singles tops ++ ls) qs)) h = Some (Str [c]).
Proof.
  intros Hh. unfold huff_set; cbn [tokens]. rewrite nth_error_app2; unfold ext_tokens; rewrite map_length, seq_length; [|lia].
  rewrite map_app, map_map. rewrite nth_error_app1 by (rewrite map_length; lia). rewrite nth_error_map.
  destruct (nth_error tops (h - n_ext)) as [c|] eqn:E; [exists c; reflexivity|]. apply nth_error_None in E. lia.
Qed.

Lemma huff_set_nth_ext n_ext p ss qs d : d < n_ext ->
  nth_error (tokens (huff_set n_ext p ss qs)) d = Some (Ext (n2b d)).
Proof.
  intros Hd. unfold huff_set; cbn [tokens]. unfold ext_tokens. rewrite nth_error_app1 by (rewrite map_length, seq_length; exact Hd).
  rewrite nth_error_map, nth_error_seq0 by exact Hd. reflexivity.
Qed.

Lemma huff_set_shaped n_ext p tops ls qs : huff_codes n_ext tops qs all_bytes -> n_ext < 256 ->
  NoDup ls -> (forall s, In s ls -> 1 < length s) ->
  shaped (huff_set n_ext p (singles tops ++ ls) qs) (singles tops ++ ls).
Proof.
  intros Hc Hn Hnd Hl.
  destruct (huff_set_usable n_ext p tops ls qs Hc Hnd Hl) as (Hu1 & Hu2 & _).
  assert (Est : str_tokens (huff_set n_ext p (singles tops ++ ls) qs) = singles tops ++ ls)
    by (apply str_tokens_shaped; reflexivity).
  unfold strings in Hu1, Hu2. fold (str_tokens (huff_set n_ext p (singles tops ++ ls) qs)) in Hu1, Hu2.
  rewrite Est in Hu1, Hu2. split.
  - reflexivity.
  - exact Hn.
  - intros Hi. apply Hu2, in_app_iff. left; exact Hi.
  - apply NoDup_app_iff in Hu1. apply Hu1.
  - intros q t Hq Ht. destruct (hc_form _ _ _ _ Hc q Hq) as (b & h & enc & -> & Hh & _ & Hd).
    unfold ntokens, huff_set, ext_tokens; cbn [tokens]. rewrite app_length, map_length, seq_length, map_length, app_length, map_length.
    destruct Ht as [<-|Ht]; [lia|]. specialize (Hd t Ht). lia.
  - intros q Hq. apply (codes_single _ _ _ _ Hc q Hq).
Qed.

Theorem C36_huffman_encoding : forall s n,
  let ts := st_token_set s in
  (forall q, In q (sequences ts) -> length (seq_string q) = 1) ->
  (exists tk, tokenizer_new ts = Ret tk) -> 3 <= n ->
  exists ts', huff_bytes s n = Ret ts' /\
    ts_type ts' = BytesHuff /\ ts_processing ts' = ts_processing ts /\
    (exists tk', tokenizer_new ts' = Ret tk') /\
    (* every byte is a token or a sequence, not both *)
    (forall b, (In (Str [b]) (tokens ts') /\ ~ In [b] (map seq_string (sequences ts'))) \/
               (~ In (Str [b]) (tokens ts') /\ In [b] (map seq_string (sequences ts')))) /\
    (* a sequence is a one-byte token followed by extension tokens *)
    (forall q, In q (sequences ts') -> exists b h enc c, q = mkSeq [b] (h :: enc) /\
       nth_error (tokens ts') h = Some (Str [c]) /\ enc <> [] /\
       forall d, In d enc -> exists x, nth_error (tokens ts') d = Some (Ext x)) /\
    (* different bytes have different encodings *)
    NoDup (map seq_string (sequences ts')) /\ NoDup (map seq_tokens (sequences ts')) /\
    (* a token stream determines the text *)
    (forall ps ps' text text', segments ts' ps text -> segments ts' ps' text' ->
       stream ts' ps = stream ts' ps' -> text = text').
Proof.
  intros s n ts Hs Htk Hn. unfold ts in *. clear ts. rewrite C01_tokenizer_exists_iff_usable in Htk.
  destruct (huff_bytes_ok s n Hs Hn) as (counts & n_ext & tops & qs & _ & _ & E & Hr & Hlt & Hlen & Hc & _).
  set (ls := longs (str_tokens (st_token_set s))) in *.
  assert (Hnd : NoDup ls).
  { apply NoDup_filter. destruct Htk as (Hu & _). unfold strings in Hu. apply NoDup_app_iff in Hu. apply Hu. }
  assert (Hl : forall x, In x ls -> 1 < length x) by (intros x Hx; apply in_longs in Hx; apply Hx).
  exists (huff_set n_ext (ts_processing (st_token_set s)) (singles tops ++ ls) qs).
  pose proof (huff_set_usable n_ext (ts_processing (st_token_set s)) tops ls qs Hc Hnd Hl) as Hu.
  pose proof Hu as (Hu1 & _ & Hu3).
  unfold strings in Hu1, Hu3. apply NoDup_app_iff in Hu1 as (_ & Hu1 & Hu2).
  split; [exact E|]. split; [reflexivity|]. split; [reflexivity|].
  split; [apply C01_tokenizer_exists_iff_usable; exact Hu|].
  split; [|split; [|split; [exact Hu1|split; [exact (hc_distinct _ _ _ _ Hc)|]]]].
  - intros b. rewrite <- in_str_tokens. unfold str_tokens. specialize (Hu3 b). apply in_app_iff in Hu3 as [H|H].
    + left. split; [exact H|apply Hu2; exact H].
    + right. split; [|exact H]. intros H'. apply (Hu2 _ H' H).
  - intros q Hq. destruct (hc_form _ _ _ _ Hc q Hq) as (b & h & enc & -> & Hh & He & Hd).
    destruct (huff_set_nth_top n_ext (ts_processing (st_token_set s)) tops ls qs h Hh) as (c & Ec).
    exists b, h, enc, c. split; [reflexivity|]. split; [exact Ec|]. split; [exact He|].
    intros d Hi. exists (n2b d). apply huff_set_nth_ext. apply Hd; exact Hi.
  - intros ps ps' text text' H1 H2 H3. eapply huff_stream_unique; eauto.
Qed.

(** ** C37: the size of the byteshuff encoding *)
Theorem C37_huffman_size : forall s n,
  let ts := st_token_set s in
  (forall q, In q (sequences ts) -> length (seq_string q) = 1) -> 3 <= n ->
  exists ts', huff_bytes s n = Ret ts' /\
    ntokens ts' = Nat.min n 258 + n_long_tokens ts /\
    n_long_tokens ts' = n_long_tokens ts /\
    filter is_long (tokens ts') = filter is_long (tokens ts) /\
    2 <= n_ext_tokens ts' <= 10.
Proof.
  intros s n ts Hs Hn. unfold ts in *. clear ts.
  destruct (huff_bytes_ok s n Hs Hn) as (counts & n_ext & tops & qs & _ & _ & E & Hr & Hlt & Hlen & Hc & _).
  eexists. split; [exact E|].
  assert (El : forall l, filter is_long (map Str l) = map Str (longs l)).
  { induction l as [|x l IH]; [reflexivity|]. unfold longs in *. cbn [map filter is_long]. rewrite IH.
    destruct (1 <? length x); reflexivity. }
  assert (Ee : forall m, filter is_long (ext_tokens m) = []).
  { intros m. unfold ext_tokens. induction (seq 0 m); cbn; auto. }
  assert (Ef : filter is_long (tokens (st_token_set s)) = map Str (longs (str_tokens (st_token_set s)))).
  { unfold str_tokens. unfold longs in *.
    induction (tokens (st_token_set s)) as [|[x|] l IH]; cbn [filter is_long flat_map app]; [reflexivity| |exact IH].
    rewrite IH. destruct (1 <? length x); reflexivity. }
  assert (Eg : filter is_long (tokens (huff_set n_ext (ts_processing (st_token_set s)) (singles tops ++ longs (str_tokens (st_token_set s))) qs))
               = filter is_long (tokens (st_token_set s))).
  { unfold huff_set; cbn [tokens]. rewrite filter_app, Ee, El, longs_app, longs_singles. cbn [app].
    rewrite Ef. f_equal. apply longs_id. intros x Hx. apply in_longs in Hx. apply Hx. }
  split; [|split; [|split; [exact Eg|exact Hr]]].
  - unfold n_long_tokens. rewrite Ef, map_length. unfold ntokens, huff_set, ext_tokens; cbn [tokens].
    rewrite app_length, map_length, seq_length, map_length, app_length, map_length.
    clear -Hlen. rewrite (Nat.add_assoc n_ext), (Nat.add_comm n_ext), Hlen. reflexivity.
  - unfold n_long_tokens. rewrite Eg. reflexivity.
Qed.

Theorem C37_small_budgets_panic : forall s n,
  (forall q, In q (sequences (st_token_set s)) -> length (seq_string q) = 1) -> n < 3 -> huff_bytes s n = Panic.
Proof. exact huff_bytes_small. Qed.

(** Bytes sets and huffman sets satisfy the hypotheses. *)
Example C35_C36_hypotheses_met :
  let s := stats_new ex_set (Some 3) in
  (exists ss, shaped (st_token_set s) ss) /\ (exists tk, tokenizer_new (st_token_set s) = Ret tk) /\
  full_stats s /\ ts_type (st_token_set s) = Bits4 /\
  (forall q, In q (sequences (st_token_set s)) -> length (seq_string q) = 1).
Proof.
  cbn [st_token_set stats_new]. split; [|split; [apply C01_example|split; [|split]]].
  - unfold ex_set. pose proof (shaped_new_bits4 Raw true) as S. revert S.
    generalize (new_bits4 Raw true). intros ts S.
    eexists. apply shaped_add; [apply shaped_add; [apply shaped_add; [exact S|..]|..]|..];
      cbn; intuition discriminate.
  - destruct (matches_new ex_set (Some 3)) as (_ & H1 & H2 & _). split; assumption.
  - unfold ex_set. rewrite new_bits4_eq. generalize (bits_set_fields 16 Bits4 Raw true enc4).
    assert (E : ts_type (bits_set 16 Bits4 Raw true enc4) = Bits4) by reflexivity.
    revert E. generalize (bits_set 16 Bits4 Raw true enc4). intros ts E _. exact E.
  - unfold ex_set. rewrite new_bits4_eq. generalize (seqs_two enc4 16 Bits4 Raw true).
    generalize (bits_set 16 Bits4 Raw true enc4). intros ts Hts q Hq.
    cbn in Hq. repeat (apply filter_In in Hq as (Hq & _)). apply (Hts q Hq).
Qed.

(** Three extension tokens for seven bytes: codes of different lengths. *)
Example C36_ext_example :
  optimize_ext_encoding 7 [(x61, 3); (x62, 9); (x63, 1); (x64, 8); (x65, 2); (x66, 2); (x67, 1)] 3
  = Ret [(x62, [0]); (x61, [0; 0]); (x64, [1]); (x63, [1; 0]); (x66, [2]); (x65, [2; 0]); (x67, [2; 1])].
Proof. reflexivity. Qed.
