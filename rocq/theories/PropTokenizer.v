(** * Properties C01-C07, C09, C10, C16: the tokenizer. *)
From Verif Require Import Base BaseLemmas TokenSetModel TokenizerModel TokSpec
  TokenizerProof1 TokenizerProof2 TokenSetProof TokenizerTheory.

(** The running example: a bits4 set with the tokens "a", "ab" and "bc". *)
Definition ex_set : tokenset :=
  add_token_unchecked (add_token_unchecked (add_token_unchecked
    (new_bits4 Raw true) [x61]) [x61; x62]) [x62; x63].

Lemma ex_tokens_ok ts : usable ts -> str_tokens ts = [] -> seqs_in_range ts -> seqs_nonempty ts ->
  let ts' := add_token_unchecked (add_token_unchecked (add_token_unchecked ts [x61])
               [x61; x62]) [x62; x63] in
  usable ts' /\ seqs_in_range ts' /\ seqs_nonempty ts' /\
  str_tokens ts' = [[x61]; [x61; x62]; [x62; x63]].
Proof.
  intros Hu Hs Hr Hn ts'. unfold ts'. split; [|split; [|split]].
  - apply usable_add; [apply usable_add; [apply usable_add|..]|..];
      try exact Hu; try discriminate; rewrite ?str_tokens_add, Hs; cbn; intuition discriminate.
  - repeat apply seqs_in_range_add. exact Hr.
  - repeat apply seqs_nonempty_add. exact Hn.
  - rewrite !str_tokens_add, Hs. reflexivity.
Qed.

Lemma ex_set_ok : usable ex_set /\ seqs_in_range ex_set /\ seqs_nonempty ex_set /\
  str_tokens ex_set = [[x61]; [x61; x62]; [x62; x63]].
Proof.
  apply ex_tokens_ok; rewrite new_bits4_eq.
  - apply usable_bits_set.
  - apply str_tokens_bits_set.
  - apply seqs_bits_set. exact enc4_bound.
  - apply seqs_nonempty_bits_set. discriminate.
Qed.

(** ** C01 *)
Theorem C01_tokenizer_exists_iff_usable : forall ts,
  (exists tk, tokenizer_new ts = Ret tk) <->
  (NoDup (strings ts) /\ ~ In [] (strings ts) /\ forall b : byte, In [b] (strings ts)).
Proof.
  intros ts. split.
  - intros (tk & H). exact (tk_ok_usable ts tk (tokenizer_new_ok ts tk H)).
  - apply usable_tokenizer.
Qed.

Example C01_example : exists tk, tokenizer_new ex_set = Ret tk.
Proof. apply C01_tokenizer_exists_iff_usable, ex_set_ok. Qed.

Example C01_rejects : ~ exists tk, tokenizer_new (add_token_unchecked ex_set [x61]) = Ret tk.
Proof.
  rewrite C01_tokenizer_exists_iff_usable. intros (H & _).
  unfold strings in H. fold (str_tokens (add_token_unchecked ex_set [x61])) in H.
  rewrite str_tokens_add in H. apply NoDup_app_iff in H as (H & _).
  rewrite (proj2 (proj2 (proj2 ex_set_ok))) in H. cbn in H.
  inversion H as [|? ? Hn _]; subst. apply Hn; cbn; auto.
Qed.

(** The main fact behind C02-C07: for every text there is one optimal
    segmentation that explains every counter, for every buffer and all
    matching statistics. *)
Theorem tokenization_correct : forall ts tk text,
  tokenizer_new ts = Ret tk -> seqs_in_range ts ->
  exists ps cs, optimal ts ps text /\
    forall s buffer, matches ts s ->
    exists s', process_slice tk text s buffer = Ret (s', cs) /\ counted ts ps text s s'.
Proof.
  intros ts tk text H Hr. pose proof (tokenizer_new_ok ts tk H) as Hok.
  apply process_slice_correct; auto. eapply tk_ok_usable; exact Hok.
Qed.

(** ** C02: the chosen pieces concatenate to the input; the counters are those
    of that segmentation. *)
Theorem C02_lossless : forall ts tk text s buffer s' buffer',
  tokenizer_new ts = Ret tk -> seqs_in_range ts -> matches ts s ->
  process_slice tk text s buffer = Ret (s', buffer') ->
  exists ps, segments ts ps text /\ counted ts ps text s s'.
Proof.
  intros ts tk text s buffer s' buffer' H Hr Hm E.
  destruct (tokenization_correct ts tk text H Hr) as (ps & cs & (Ho & _) & Hall).
  destruct (Hall s buffer Hm) as (s1 & E1 & Hc). rewrite E in E1; injection E1 as <- <-.
  eauto.
Qed.

(** ** C03 *)
Theorem C03_optimal : forall ts tk text s buffer s' buffer',
  tokenizer_new ts = Ret tk -> seqs_in_range ts -> matches ts s ->
  process_slice tk text s buffer = Ret (s', buffer') ->
  (exists ps, segments ts ps text /\
     total_tokens s' = total_tokens s + length (stream ts ps)) /\
  (forall qs, segments ts qs text ->
     total_tokens s' <= total_tokens s + length (stream ts qs)).
Proof.
  intros ts tk text s buffer s' buffer' H Hr Hm E.
  destruct (tokenization_correct ts tk text H Hr) as (ps & cs & (Ho & Hmin) & Hall).
  destruct (Hall s buffer Hm) as (s1 & E1 & Hc). rewrite E in E1; injection E1 as <- <-.
  rewrite (counted_total _ _ _ _ _ Hc). split; [eauto|].
  intros qs Hq. specialize (Hmin qs Hq). lia.
Qed.

Lemma total_is_min ts tk text s buffer s' buffer' :
  tokenizer_new ts = Ret tk -> seqs_in_range ts -> matches ts s ->
  process_slice tk text s buffer = Ret (s', buffer') ->
  min_tokens ts text (total_tokens s' - total_tokens s) /\ total_tokens s <= total_tokens s'.
Proof.
  intros H Hr Hm E.
  destruct (tokenization_correct ts tk text H Hr) as (ps & cs & Ho & Hall).
  destruct (Hall s buffer Hm) as (s1 & E1 & Hc). rewrite E in E1; injection E1 as <- <-.
  rewrite (counted_total _ _ _ _ _ Hc). split; [|lia]. exists ps; split; [exact Ho|lia].
Qed.

(** ** C04 *)
Theorem C04_totals_consistent : forall ts tk text s buffer s' buffer',
  tokenizer_new ts = Ret tk -> seqs_in_range ts -> matches ts s ->
  process_slice tk text s buffer = Ret (s', buffer') ->
  scanned_bytes s' = scanned_bytes s + length text /\
  exists ps, segments ts ps text /\
    total_tokens s' = total_tokens s + length (stream ts ps) /\
    sum (token_counts s') = sum (token_counts s) + length (stream ts ps).
Proof.
  intros ts tk text s buffer s' buffer' H Hr Hm E.
  destruct (C02_lossless _ _ _ _ _ _ _ H Hr Hm E) as (ps & Hs & Hc).
  split; [apply (counted_scanned _ _ _ _ _ Hc)|].
  exists ps. split; [exact Hs|]. split; [apply (counted_total _ _ _ _ _ Hc)|].
  eapply counted_sum; eauto.
Qed.

(** ** C05 *)
Theorem C05_counts_are_occurrences : forall ts tk text s buffer s' buffer',
  tokenizer_new ts = Ret tk -> seqs_in_range ts -> matches ts s ->
  process_slice tk text s buffer = Ret (s', buffer') ->
  exists ps, segments ts ps text /\
    total_tokens s' = total_tokens s + length (stream ts ps) /\
    (forall t, nth t (token_counts s') 0
       = nth t (token_counts s) 0 + count_occ Nat.eq_dec (stream ts ps) t) /\
    (forall q, nth q (seq_counts s') 0
       = nth q (seq_counts s) 0 + count_occ piece_eq_dec ps (PSeq q)).
Proof.
  intros ts tk text s buffer s' buffer' H Hr Hm E.
  destruct (C02_lossless _ _ _ _ _ _ _ H Hr Hm E) as (ps & Hs & Hc).
  exists ps. split; [exact Hs|]. split; [apply (counted_total _ _ _ _ _ Hc)|].
  split; [apply (counted_tokens _ _ _ _ _ Hc)|apply (counted_seqs _ _ _ _ _ Hc)].
Qed.

(** ** C06: two inputs in a row, each counted on its own *)
Theorem C06_pair_counts : forall ts tk text1 text2 s0 b0 s1 b1 s2 b2,
  tokenizer_new ts = Ret tk -> seqs_in_range ts -> matches ts s0 ->
  process_slice tk text1 s0 b0 = Ret (s1, b1) ->
  process_slice tk text2 s1 b1 = Ret (s2, b2) ->
  exists ps1 ps2, segments ts ps1 text1 /\ segments ts ps2 text2 /\
    total_tokens s2 = total_tokens s0 + length (stream ts ps1) + length (stream ts ps2) /\
    forall i j, i < ntokens ts -> j < ntokens ts ->
      nth (i * ntokens ts + j) (pair_counts s1) 0
        = nth (i * ntokens ts + j) (pair_counts s0) 0 + adj i j ps1 /\
      nth (i * ntokens ts + j) (pair_counts s2) 0
        = nth (i * ntokens ts + j) (pair_counts s0) 0 + adj i j ps1 + adj i j ps2.
Proof.
  intros ts tk text1 text2 s0 b0 s1 b1 s2 b2 H Hr Hm E1 E2.
  destruct (C02_lossless _ _ _ _ _ _ _ H Hr Hm E1) as (ps1 & Hs1 & Hc1).
  destruct (C02_lossless _ _ _ _ _ _ _ H Hr (counted_matches _ _ _ _ _ Hc1) E2) as (ps2 & Hs2 & Hc2).
  exists ps1, ps2. split; [exact Hs1|]. split; [exact Hs2|]. split.
  - rewrite (counted_total _ _ _ _ _ Hc2), (counted_total _ _ _ _ _ Hc1). lia.
  - intros i j Hi Hj. rewrite (counted_pairs _ _ _ _ _ Hc2 i j Hi Hj).
    rewrite (counted_pairs _ _ _ _ _ Hc1 i j Hi Hj). lia.
Qed.

(** [adj] says what it should on a small literal. *)
Example adj_example : adj 3 4 [PTok 3; PTok 4; PSeq 0; PTok 3; PTok 4; PTok 3; PTok 3] = 2.
Proof. reflexivity. Qed.

(** ** C07 *)
Theorem C07_total_and_buffer_independent : forall ts tk text s,
  tokenizer_new ts = Ret tk -> seqs_in_range ts -> matches ts s ->
  exists s' b', forall buffer, process_slice tk text s buffer = Ret (s', b').
Proof.
  intros ts tk text s H Hr Hm.
  destruct (tokenization_correct ts tk text H Hr) as (ps & cs & _ & Hall).
  destruct (Hall s [] Hm) as (s' & E & _). exists s', cs. intros buffer. exact E.
Qed.

Example C02_C07_hypotheses_met :
  (exists tk, tokenizer_new ex_set = Ret tk) /\ seqs_in_range ex_set /\
  matches ex_set (stats_new ex_set (Some 3)).
Proof. split; [apply C01_example|]. split; [apply ex_set_ok|apply matches_new]. Qed.

(** ** C08, general form (the sorted version is in PropTokenSet.v) *)
Theorem C08_same_dictionary_same_total : forall ts1 ts2 tk1 tk2 text s1 b1 s1' b1' s2 b2 s2' b2',
  tokenizer_new ts1 = Ret tk1 -> tokenizer_new ts2 = Ret tk2 ->
  seqs_in_range ts1 -> seqs_in_range ts2 ->
  (forall x c,
    (exists p, piece_string ts1 p = Some x /\ length (piece_tokens ts1 p) = c) <->
    (exists p, piece_string ts2 p = Some x /\ length (piece_tokens ts2 p) = c)) ->
  matches ts1 s1 -> matches ts2 s2 ->
  process_slice tk1 text s1 b1 = Ret (s1', b1') ->
  process_slice tk2 text s2 b2 = Ret (s2', b2') ->
  total_tokens s1' - total_tokens s1 = total_tokens s2' - total_tokens s2.
Proof.
  intros ts1 ts2 tk1 tk2 text s1 b1 s1' b1' s2 b2 s2' b2' H1 H2 R1 R2 Hsame M1 M2 E1 E2.
  apply (same_dict_min ts1 ts2 text); [exact Hsame| |].
  - eapply total_is_min; [exact H1|exact R1|exact M1|exact E1].
  - eapply total_is_min; [exact H2|exact R2|exact M2|exact E2].
Qed.

(** ** C09 *)
Theorem C09_adding_a_token_never_hurts :
  forall ts new ts' i tk tk' text s b s1 b1 s' b' s1' b1',
  add_token ts new = Ret (ts', i) ->
  tokenizer_new ts = Ret tk -> tokenizer_new ts' = Ret tk' ->
  seqs_in_range ts -> (forall q, In q (sequences ts) -> seq_tokens q <> []) ->
  matches ts s -> matches ts' s' ->
  process_slice tk text s b = Ret (s1, b1) ->
  process_slice tk' text s' b' = Ret (s1', b1') ->
  total_tokens s1' - total_tokens s' <= total_tokens s1 - total_tokens s.
Proof.
  intros ts new ts' i tk tk' text s b s1 b1 s' b' s1' b1' Ha H H' Hr Hne M M' E E'.
  unfold add_token in Ha. apply assert_that_bind in Ha as (_ & Ha). injection Ha as <- <-.
  apply (dict_le_min (add_token_unchecked ts new) ts text).
  - apply add_token_dict_le; exact Hne.
  - eapply total_is_min; [exact H'|apply seqs_in_range_add; exact Hr|exact M'|exact E'].
  - eapply total_is_min; [exact H|exact Hr|exact M|exact E].
Qed.

Example C09_hypotheses_met : exists ts' i tk tk',
  add_token ex_set [x61; x62; x63] = Ret (ts', i) /\
  tokenizer_new ex_set = Ret tk /\ tokenizer_new ts' = Ret tk' /\
  seqs_in_range ex_set /\ (forall q, In q (sequences ex_set) -> seq_tokens q <> []).
Proof.
  destruct C01_example as (tk & Htk).
  destruct (usable_tokenizer (add_token_unchecked ex_set [x61; x62; x63])) as (tk' & Htk').
  { apply usable_add; [apply ex_set_ok|discriminate|].
    rewrite (proj2 (proj2 (proj2 ex_set_ok))). cbn. intuition discriminate. }
  exists (add_token_unchecked ex_set [x61; x62; x63]), (length (tokens ex_set)), tk, tk'.
  split; [unfold add_token; reflexivity|]. split; [exact Htk|]. split; [exact Htk'|].
  split; apply ex_set_ok.
Qed.

(** ** C10 *)
Theorem C10_bounds : forall ts tk text s b s' b' (byte_cost : byte -> nat) maxlen,
  tokenizer_new ts = Ret tk -> seqs_in_range ts ->
  (forall q, In q (sequences ts) -> seq_tokens q <> []) ->
  matches ts s -> process_slice tk text s b = Ret (s', b') ->
  (forall c, exists p, piece_string ts p = Some [c] /\ length (piece_tokens ts p) = byte_cost c) ->
  (forall x, In x (strings ts) -> length x <= maxlen) ->
  total_tokens s' <= total_tokens s + sum (map byte_cost text) /\
  length text <= maxlen * (total_tokens s' - total_tokens s).
Proof.
  intros ts tk text s b s' b' bc L H Hr Hne M E Hbc HL.
  destruct (C03_optimal _ _ _ _ _ _ _ H Hr M E) as ((ps & Hps & Ht) & Hmin). split.
  - destruct (segments_bytes ts bc Hbc text) as (qs & Hq & <-). apply Hmin; exact Hq.
  - rewrite Ht. replace (total_tokens s + length (stream ts ps) - total_tokens s)
      with (length (stream ts ps)) by lia. apply (segments_length ts L ps text); auto.
Qed.

Example C10_hypotheses_met :
  (forall c, exists p, piece_string (new_bytes Raw) p = Some [c] /\
      length (piece_tokens (new_bytes Raw) p) = 1) /\
  (forall x, In x (strings (new_bytes Raw)) -> length x <= 1).
Proof.
  rewrite new_bytes_eq. split.
  - intros c. exists (PTok (b2n c)). split; [|reflexivity]. unfold piece_string, bytes_set; cbn [tokens].
    rewrite nth_error_map, (nth_error_nth' _ 0) by (rewrite seq_length; apply b2n_lt).
    rewrite seq_nth by apply b2n_lt. cbn. rewrite n2b_b2n; reflexivity.
  - intros x Hx. rewrite strings_bytes_set in Hx. apply in_map_iff in Hx as (c & <- & _). cbn; lia.
Qed.

(** ** C16 *)
(** The least token count of the whole is at most the sum over its parts, and
    equal to it if no string of the token set can straddle one of the cuts. *)
Theorem C16_cutting_into_samples : forall ts parts ns n,
  usable ts -> Forall2 (min_tokens ts) parts ns -> min_tokens ts (concat parts) n ->
  n <= sum ns /\
  ((forall l1 l2 x y, parts = l1 ++ l2 -> x <> [] -> y <> [] -> In (x ++ y) (strings ts) ->
      (exists a, concat l1 = a ++ x) -> (exists b, concat l2 = y ++ b) -> False) ->
   n = sum ns).
Proof.
  intros ts parts ns n Hu H Hn. destruct (cut_parts ts parts ns n Hu H Hn) as (H1 & H2).
  split; [exact H1|]. intros Hno. apply H2. intros l1 l2 E x y Hx Hy Hin Ha Hb.
  exact (Hno l1 l2 x y E Hx Hy Hin Ha Hb).
Qed.

(** A cut after a newline before a non-newline is free if no string of the set
    has a newline directly followed by a non-newline. *)
Theorem C16_line_cuts_are_free : forall ts a b c n na nb,
  (forall x y c', In (x ++ x0a :: c' :: y) (strings ts) -> c' = x0a) -> c <> x0a ->
  min_tokens ts ((a ++ [x0a]) ++ (c :: b)) n ->
  min_tokens ts (a ++ [x0a]) na -> min_tokens ts (c :: b) nb -> n = na + nb.
Proof.
  intros ts a b c n na nb Hrule Hc. apply cut_eq.
  intros x y Hx Hy Hin (a' & Ha) (b' & Hb).
  destruct (exists_last Hx) as (x' & d & ->). rewrite app_assoc in Ha.
  apply app_inj_tail in Ha as [_ <-].
  destruct y as [|c' y]; [congruence|]. injection Hb as <- _.
  rewrite <- app_assoc in Hin. apply Hc. eapply Hrule; exact Hin.
Qed.

(** C16 in terms of the tokenizer: a text tokenized at once or in two parts. *)
Theorem C16_tokenizing_two_parts : forall ts tk a b s b0 s1 b1 s2 b2 s3 b3,
  tokenizer_new ts = Ret tk -> seqs_in_range ts -> matches ts s ->
  process_slice tk (a ++ b) s b0 = Ret (s1, b1) ->
  process_slice tk a s b0 = Ret (s2, b2) -> process_slice tk b s2 b2 = Ret (s3, b3) ->
  total_tokens s1 <= total_tokens s3 /\
  scanned_bytes s1 = scanned_bytes s3 /\
  ((forall x y, x <> [] -> y <> [] -> In (x ++ y) (strings ts) ->
      (exists a', a = a' ++ x) -> (exists b', b = y ++ b') -> False) ->
   total_tokens s1 = total_tokens s3).
Proof.
  intros ts tk a b s b0 s1 b1 s2 b2 s3 b3 H Hr M E1 E2 E3.
  destruct (total_is_min _ _ _ _ _ _ _ H Hr M E1) as (M1 & L1).
  destruct (total_is_min _ _ _ _ _ _ _ H Hr M E2) as (M2 & L2).
  destruct (C02_lossless _ _ _ _ _ _ _ H Hr M E1) as (ps1 & _ & C1).
  destruct (C02_lossless _ _ _ _ _ _ _ H Hr M E2) as (ps2 & _ & C2).
  pose proof (counted_matches _ _ _ _ _ C2) as Ms2.
  destruct (total_is_min _ _ _ _ _ _ _ H Hr Ms2 E3) as (M3 & L3).
  destruct (C02_lossless _ _ _ _ _ _ _ H Hr Ms2 E3) as (ps3 & _ & C3).
  pose proof (cut_le _ _ _ _ _ _ M1 M2 M3) as Hle. split; [lia|]. split.
  - rewrite (counted_scanned _ _ _ _ _ C1), (counted_scanned _ _ _ _ _ C3),
      (counted_scanned _ _ _ _ _ C2), app_length. lia.
  - intros Hno. pose proof (cut_eq ts a b _ _ _ Hno M1 M2 M3). lia.
Qed.

Lemma seqs_two enc n t p sp q :
  In q (sequences (bits_set n t p sp enc)) -> length (seq_string q) = 1.
Proof.
  unfold bits_set; cbn [sequences]. intros H. apply in_map_iff in H as (c & <- & _). reflexivity.
Qed.

(** In [ex_set] nothing crosses the cut "b" | "b", but "ab" crosses "a" | "b". *)
Example C16_hypotheses_met :
  (forall x y, x <> [] -> y <> [] -> In (x ++ y) (strings ex_set) ->
      (exists a', [x62] = a' ++ x) -> (exists b', [x62] = y ++ b') -> False) /\
  In ([x61] ++ [x62]) (strings ex_set).
Proof.
  split.
  - intros x y Hx Hy Hin (a' & Ha) (b' & Hb).
    destruct x as [|x1 x]; [congruence|]. destruct y as [|y1 y]; [congruence|].
    destruct a' as [|? [|]]; try discriminate. cbn in Ha. injection Ha as <- <-.
    injection Hb as <- Hb. symmetry in Hb. apply app_eq_nil in Hb as [-> ->].
    cbn [app] in Hin. unfold strings in Hin. fold (str_tokens ex_set) in Hin.
    rewrite (proj2 (proj2 (proj2 ex_set_ok))) in Hin. apply in_app_iff in Hin as [Hin|Hin].
    + cbn in Hin. intuition discriminate.
    + apply in_map_iff in Hin as (q & Eq & Hq). revert Hq. unfold ex_set.
      rewrite new_bits4_eq. generalize (seqs_two enc4 16 Bits4 Raw true).
      generalize (bits_set 16 Bits4 Raw true enc4). intros ts Hts Hq.
      cbn in Hq. repeat (apply filter_In in Hq as (Hq & _)). apply (Hts q) in Hq. rewrite Eq in Hq. discriminate.
  - unfold strings. fold (str_tokens ex_set). apply in_app_iff. left.
    rewrite (proj2 (proj2 (proj2 ex_set_ok))). cbn. auto.
Qed.

(** ** C51: cuts at paragraph ends.
    The paragraph rule of the optimizer: no string of the set contains two
    newlines followed by something else. *)
Definition paragraph_rule (ts : tokenset) : Prop :=
  forall x y c, In (x ++ x0a :: x0a :: c :: y) (strings ts) -> c = x0a.

Definition para_ex : tokenset := add_token_unchecked (new_bytes Raw) [x0a; x62].

Lemma para_ex_strings s : In s (strings para_ex) <-> (exists c, s = [c]) \/ s = [x0a; x62].
Proof.
  unfold para_ex. rewrite in_strings_add, new_bytes_eq, strings_bytes_set, in_map_iff.
  split; (intros [H|H]; [left|right; exact H]).
  - destruct H as (c & <- & _). eauto.
  - destruct H as (c & ->). exists c. split; [reflexivity|apply in_all_bytes].
Qed.

(** The rule does not make such cuts free: "\n\nb" is "\n","\nb" as a whole
    but "\n","\n","b" in two parts. *)
Theorem C51_paragraph_cuts_not_free_refuted :
  ~ (forall ts a b c n na nb, usable ts -> paragraph_rule ts -> c <> x0a ->
       min_tokens ts ((a ++ [x0a; x0a]) ++ (c :: b)) n ->
       min_tokens ts (a ++ [x0a; x0a]) na -> min_tokens ts (c :: b) nb -> n = na + nb).
Proof.
  intros H.
  assert (Hu : usable para_ex).
  { unfold para_ex. rewrite new_bytes_eq. apply usable_add; [apply usable_bytes_set|discriminate|].
    rewrite in_str_tokens. unfold bytes_set; cbn [tokens].
    rewrite in_map_iff. intros (c & E & _). discriminate. }
  destruct (min_tokens_exists para_ex (([] ++ [x0a; x0a]) ++ [x62]) Hu) as (n & Hn).
  destruct (min_tokens_exists para_ex ([] ++ [x0a; x0a]) Hu) as (na & Ha).
  destruct (min_tokens_exists para_ex [x62] Hu) as (nb & Hb).
  assert (E : n = na + nb).
  { apply (H para_ex [] [] x62); auto; [|discriminate].
    intros x y c Hin. apply para_ex_strings in Hin as [(d & E)|E];
      destruct x as [|? [|? [|]]]; discriminate. }
  assert (Hno : no_crossing para_ex [x0a] [x0a]).
  { intros x y Hx Hy Hin (a' & Ea) (b' & Eb).
    destruct x as [|x1 x]; [congruence|]. destruct y as [|y1 y]; [congruence|].
    apply para_ex_strings in Hin as [(d & Ed)|Ed]; [destruct x; discriminate|].
    destruct x; [|destruct x; discriminate]. injection Ed as -> -> ->.
    discriminate. }
  assert (Hone : forall c m, min_tokens para_ex [c] m -> 1 <= m).
  { intros c m (ps & (Hs & _) & ->). destruct ps as [|p ps]; [inversion Hs|].
    inversion Hs; subst. unfold stream; cbn. destruct p as [i|i]; cbn; [lia|].
    match goal with H : piece_string _ _ = _ |- _ => rename H into Hp end.
    unfold piece_string in Hp.
    assert (Es : sequences para_ex = []) by (unfold para_ex; rewrite new_bytes_eq; reflexivity).
    rewrite Es in Hp. destruct i; discriminate. }
  assert (H2 : 2 <= na).
  { destruct (min_tokens_exists para_ex [x0a] Hu) as (k & Hk).
    pose proof (cut_eq para_ex [x0a] [x0a] na k k Hno Ha Hk Hk). specialize (Hone _ _ Hk). lia. }
  specialize (Hone _ _ Hb).
  assert (Hp : exists i j, piece_string para_ex (PTok i) = Some [x0a] /\
                           piece_string para_ex (PTok j) = Some [x0a; x62]).
  { exists 10, 256. unfold para_ex. rewrite new_bytes_eq. cbn [piece_string add_token_unchecked tokens].
    unfold bytes_set; cbn [tokens]. split.
    - rewrite nth_error_app1 by (rewrite map_length, seq_length; lia).
      rewrite nth_error_map, (nth_error_nth' _ 0) by (rewrite seq_length; lia).
      rewrite seq_nth by lia. reflexivity.
    - rewrite nth_error_app2 by (rewrite map_length, seq_length; lia).
      rewrite map_length, seq_length. reflexivity. }
  destruct Hp as (i & j & Hi & Hj).
  assert (Hseg : segments para_ex [PTok i; PTok j] (([] ++ [x0a; x0a]) ++ [x62])).
  { change (([] ++ [x0a; x0a]) ++ [x62]) with ([x0a] ++ [x0a; x62] ++ []).
    repeat constructor; assumption. }
  pose proof (min_tokens_le _ _ _ _ Hn Hseg) as Hl. cbn in Hl. lia.
Qed.

(** What is true: with the rule, cuts at paragraph ends are free if moreover no
    string of the set starts with one newline followed by something else. *)
Theorem C51_paragraph_cuts_free_partial : forall ts a b c n na nb,
  paragraph_rule ts ->
  (forall y c', In (x0a :: c' :: y) (strings ts) -> c' = x0a) -> c <> x0a ->
  min_tokens ts ((a ++ [x0a; x0a]) ++ (c :: b)) n ->
  min_tokens ts (a ++ [x0a; x0a]) na -> min_tokens ts (c :: b) nb -> n = na + nb.
Proof.
  intros ts a b c n na nb Hrule Hstart Hc. apply cut_eq.
  intros x y Hx Hy Hin (a' & Ha) (b' & Hb).
  destruct y as [|c' y]; [congruence|]. injection Hb as <- _.
  destruct (exists_last Hx) as (x' & d & ->). rewrite app_assoc in Ha.
  replace (a ++ [x0a; x0a]) with ((a ++ [x0a]) ++ [x0a]) in Ha by (rewrite <- app_assoc; reflexivity).
  apply app_inj_tail in Ha as [Ha <-]. rewrite <- app_assoc in Hin. cbn [app] in Hin.
  destruct x' as [|e x'] using rev_ind.
  - apply Hc. eapply Hstart. exact Hin.
  - rewrite app_assoc in Ha. apply app_inj_tail in Ha as [_ <-].
    rewrite <- app_assoc in Hin. apply Hc. eapply Hrule. exact Hin.
Qed.
