(** * Totals, answers of the cache, and adding a token. *)
From Coq Require Import ZArith.
From Verif Require Import Base BaseLemmas TokenSetModel TokenizerModel TokSpec SortLemmas TokenizerProof1 TokenizerProof2
  TokenizerTheory TokenSetProof TokenSetProof2 PropTokenizer PropTokenSet StatsAlgebra BatchModel PropBatch
  PropJson Shaped CacheModel PropCache OptBytesModel OptBytesProof OptBytesProof2
  OptBytesProof3 OptBytesProof4 PropOptBytes OptimizeModel OptimizeProof1 OptimizeProof2 OptimizeProof3 OptimizeProof4 OptimizeProof5.

(** ** Totals *)
Definition total_for (ts : tokenset) (samples : list bstr) (N : nat) : Prop :=
  exists pss, Forall2 (optimal ts) pss samples /\ N = length (stream ts (concat pss)).

Lemma total_dict_le a b samples n m : dict_le a b -> total_for a samples n -> total_for b samples m -> n <= m.
Proof.
  intros Hd (pss & Hp & ->) (qss & Hq & ->). revert pss Hp. induction Hq as [|qs x qss samples (Hs & _) _ IH]; intros pss Hp; inversion Hp; subst; cbn [concat]; [cbn; lia|].
  rewrite !stream_app, !app_length. apply Nat.add_le_mono; [|apply IH; assumption].
  destruct (dict_le_segments a b qs x Hd Hs) as (rs & Hr & Hl). destruct H2 as (_ & Ho). specialize (Ho rs Hr). lia.
Qed.

Lemma total_unique a samples n m : total_for a samples n -> total_for a samples m -> n = m.
Proof.
  assert (Hd : dict_le a a) by (intros p x Hp; exists p; split; [exact Hp|lia]).
  intros H1 H2. pose proof (total_dict_le a a samples n m Hd H1 H2). pose proof (total_dict_le a a samples m n Hd H2 H1). lia.
Qed.

Lemma total_same a b samples n : same_dict a b -> total_for a samples n -> usable b -> total_for b samples n.
Proof.
  intros Hs H Hu. assert (G : exists m, total_for b samples m).
  { clear -Hu. induction samples as [|x samples (m & pss & Hp & _)].
    - exists 0, []. split; [constructor|reflexivity].
    - destruct (optimal_exists b x Hu) as (ps & Ho). eexists. exists (ps :: pss). split; [constructor; assumption|reflexivity]. }
  destruct G as (m & G). replace n with m; [exact G|].
  pose proof (total_dict_le a b samples n m (same_dict_le _ _ Hs) H G).
  pose proof (total_dict_le b a samples m n (same_dict_le _ _ (same_dict_sym _ _ Hs)) G H). lia.
Qed.

(** Every byte costs at most 258 tokens. *)
Lemma visited_cost t p sp ts b : visited t p sp ts -> cost ts b <= 258.
Proof.
  intros V. destruct (costs_all ts b (vi_usable _ _ _ _ V)) as (c & Hc).
  rewrite (cost_eq ts b c (vi_usable _ _ _ _ V) Hc). unfold all_costs in Hc. apply in_app_iff in Hc as [Hc|Hc].
  - apply in_tok_costs in Hc as (_ & ->). lia.
  - apply in_seq_costs in Hc as (q & Hq & _ & ->).
    destruct (vi_seqs _ _ _ _ V (denotes ts q) (in_map _ _ _ Hq)) as (_ & H). cbn [denotes snd] in H.
    rewrite map_length in H. destruct t; cbn [digits_of] in H; try lia.
Qed.

Lemma visited_total_bound t p sp ts samples N : visited t p sp ts -> total_for ts samples N ->
  N <= 258 * length (concat samples).
Proof.
  intros V (pss & Hp & ->). induction Hp as [|ps x pss samples (_ & Ho) _ IH]; [cbn; lia|].
  cbn [concat]. rewrite stream_app, !app_length.
  destruct (segments_bytes ts (cost ts) (fun b => piece_of_byte ts b (vi_usable _ _ _ _ V)) x) as (qs & Hq & Hl).
  specialize (Ho qs Hq). rewrite Hl in Ho.
  assert (G : sum (map (cost ts) x) <= 258 * length x).
  { clear -V. induction x as [|b x IH]; [cbn; lia|]. cbn [map length]. unfold sum in *; cbn [fold_right].
    pose proof (visited_cost _ _ _ _ b V). lia. }
  lia.
Qed.

(** ** Answers *)
Section Answers.
Variables (samples : list bstr) (init : option nat) (t : token_type) (p : processing) (sp : bool).

Record answered (ts : tokenset) (a : stats) : Prop := {
  an_visited : visited t p sp (st_token_set a);
  an_ntokens : ntokens (st_token_set a) = ntokens ts;
  an_long : n_long_tokens (st_token_set a) = n_long_tokens ts;
  an_sized : sized a;
  an_dict : same_dict ts (st_token_set a);
  an_total : total_for ts samples (total_tokens a);
  an_tallied : exists pss, tallied (st_token_set a) samples pss a
}.

Lemma tallied_total ts pss s : tallied ts samples pss s -> total_for ts samples (total_tokens s).
Proof. intros H. exists pss. split; [apply (ta_opt _ _ _ _ H)|apply (ta_total _ _ _ _ H)]. Qed.

Lemma tallied_sized ts pss s : tallied ts samples pss s -> sized s.
Proof. intros H. split; rewrite (ta_set _ _ _ _ H); [apply (ta_ntok _ _ _ _ H)|apply (ta_nseq _ _ _ _ H)]. Qed.

Lemma fresh_answered r a : visited t p sp (requested r) -> fresh_answer samples init r a ->
  answered (requested r) a /\
  (forall ts, r = WithPairs ts -> exists pss, tallied (st_token_set a) samples pss a /\ pairs_tallied (st_token_set a) pss a).
Proof.
  intros V (ts' & s & Hs & Hf & Ea). destruct (visited_sort _ _ _ _ _ V Hs) as (V' & En & El).
  pose proof (ts_sort_sorted _ _ Hs) as W. pose proof (sv_same_dict _ _ W) as D.
  destruct (sync_tallied ts' samples init s Hf (visited_range _ _ _ _ V')) as (pss & T & P).
  assert (Es : st_token_set a = ts') by (rewrite Ea; destruct r; apply (ta_set _ _ _ _ T)).
  assert (T' : tallied ts' samples pss a) by (rewrite Ea; destruct r; [exact T|apply tallied_without; exact T]).
  split.
  - split; rewrite ?Es; auto.
    + eapply tallied_sized; exact T'.
    + apply (total_same ts' (requested r)); [apply same_dict_sym; exact D|eapply tallied_total; exact T'|apply (vi_usable _ _ _ _ V)].
    + eauto.
  - intros ts ->. exists pss. rewrite Es. split; [exact T'|]. rewrite Ea. exact P.
Qed.

Lemma visited_askable r : visited t p sp (requested r) -> askable r.
Proof. intros V. split; [apply (vi_shaped _ _ _ _ V)|apply (vi_usable _ _ _ _ V)]. Qed.
End Answers.
Arguments an_visited {samples t p sp ts a}.
Arguments an_ntokens {samples t p sp ts a}.
Arguments an_long {samples t p sp ts a}.
Arguments an_sized {samples t p sp ts a}.
Arguments an_dict {samples t p sp ts a}.
Arguments an_total {samples t p sp ts a}.
Arguments an_tallied {samples t p sp ts a}.

(** ** Single-byte tokens of bits sets *)
Lemma visited_heads_free t p sp ts : visited t p sp ts -> t <> BytesHuff -> heads_free ts.
Proof.
  intros V Ht q j b Hq Hj E. destruct (vi_seqs _ _ _ _ V (denotes ts q) (in_map _ _ _ Hq)) as (_ & H).
  assert (G : Forall ext_tok (snd (denotes ts q))) by (destruct t; try (destruct H; fail); try apply H; congruence).
  rewrite Forall_forall in G. destruct (G (Some (Str [b]))) as (d & Ed); [|discriminate].
  cbn [denotes snd]. apply in_map_iff. exists j. auto.
Qed.

Definition has_byte (ts : tokenset) (b : byte) : bool := existsb (fun t => match t with Str [b'] => Byte.eqb b' b | _ => false end) (tokens ts).

Lemma has_byte_spec ts b : has_byte ts b = true <-> In (Str [b]) (tokens ts).
Proof.
  unfold has_byte. rewrite existsb_exists. split.
  - intros (x & Hx & E). destruct x as [[|b' [|]]|]; try discriminate. apply byte_eqb_eq in E. subst. exact Hx.
  - intros H. exists (Str [b]). split; [exact H|apply byte_eqb_eq; reflexivity].
Qed.

Lemma bits_cost t p sp ts b : visited t p sp ts -> is_bits t ->
  cost ts b = if has_byte ts b then 1 else digits_of t.
Proof.
  intros V Hb. pose proof (vi_usable _ _ _ _ V) as Hu. destruct (has_byte ts b) eqn:E.
  - apply has_byte_spec in E. apply cost_eq; [exact Hu|]. unfold all_costs. apply in_app_iff. left. apply in_tok_costs. auto.
  - destruct (costs_all ts b Hu) as (c & Hc). rewrite (cost_eq ts b c Hu Hc). unfold all_costs in Hc. apply in_app_iff in Hc as [Hc|Hc].
    + apply in_tok_costs in Hc as (Hc & _). apply has_byte_spec in Hc. congruence.
    + apply in_seq_costs in Hc as (q & Hq & _ & ->).
      destruct (vi_seqs _ _ _ _ V (denotes ts q) (in_map _ _ _ Hq)) as (_ & H). cbn [denotes snd] in H.
      rewrite map_length in H. destruct Hb as [->|[->| ->]]; apply H.
Qed.

Lemma weighted_sum (h : byte -> bool) (u : byte -> nat) d l :
  sum (map (fun b => (if h b then 1 else S d) * u b) l) + d * sum (map u (filter h l)) = S d * sum (map u l).
Proof.
  induction l as [|b l IH]; [cbn; lia|]. cbn [map filter]. destruct (h b); cbn [map]; unfold sum in *; cbn [fold_right]; nia.
Qed.

Lemma digits_pos t : is_bits t -> exists d, digits_of t = S d.
Proof. intros [->|[->| ->]]; eexists; reflexivity. Qed.

(** Old byte tokens are at most [base_size - lo] many. *)
Lemma bytes_count t p sp ts : visited t p sp ts -> is_bits t ->
  length (filter (has_byte ts) all_bytes) <= base_size ts - lo t.
Proof.
  intros V Hb. destruct (vi_shaped _ _ _ _ V) as (ss & S). rewrite (base_shaped _ _ S).
  pose proof (sh_fits _ _ S) as F. rewrite (vi_type _ _ _ _ V) in F. destruct (fits_bits _ _ Hb F) as (-> & _).
  replace (lo t + length (shorts ss) - lo t) with (length (shorts ss)) by lia.
  rewrite <- (map_length (fun b : byte => [b])). apply NoDup_incl_length.
  - apply FinFun.Injective_map_NoDup; [intros a b E; congruence|apply NoDup_filter, NoDup_all_bytes].
  - intros x Hx. apply in_map_iff in Hx as (b & <- & Hx). apply filter_In in Hx as (_ & Hx). apply has_byte_spec in Hx.
    apply (in_shorts ts ss [b] S). split; [|eauto]. rewrite <- (str_tokens_shaped _ _ (sh_tokens _ _ S)). apply in_str_tokens. exact Hx.
Qed.

Lemma bits_with_tokens ts0 chosen ls x : ~ In (Str x) (tokens ts0) ->
  In (Str x) (tokens (bits_with ts0 chosen ls)) <-> In x (singles chosen ++ ls).
Proof.
  intros H. unfold bits_with. rewrite fold_add_unchecked. cbn [tokens]. rewrite in_app_iff. split.
  - intros [G|G]; [contradiction|]. apply in_map_iff in G as (y & E & Hy). injection E as ->. exact Hy.
  - intros G. right. apply in_map. exact G.
Qed.

Lemma bits_fresh_no_str t p sp ts0 x : bits_fresh t p sp = Some ts0 -> ~ In (Str x) (tokens ts0).
Proof.
  intros Hf H. destruct (bits_fresh_inv _ _ _ _ Hf) as (base & k & enc & E0 & _).
  destruct (bits_set_fields base t p sp enc) as (_ & E2 & _). rewrite E0, E2 in H.
  unfold ext_tokens in H. apply in_map_iff in H as (y & E & _). discriminate.
Qed.

(** Spending for the most used bytes is no worse than any other choice of
    as many or fewer. *)
Lemma top_bytes_spent t p sp s m : is_bits t -> sized s -> visited t p sp (st_token_set s) ->
  forall new, visited t p sp new ->
  (forall b, In (Str [b]) (tokens new) <-> In b (firstn m (ranked s))) ->
  base_size (st_token_set s) - lo t <= m ->
  spent s (cost new) <= spent s (cost (st_token_set s)).
Proof.
  intros Hb Hz V new V' Hn Hm. pose proof (vi_usable _ _ _ _ V) as Hu.
  rewrite !spent_grouped by assumption. destruct (digits_pos t Hb) as (d & Ed).
  assert (E : forall ts, visited t p sp ts ->
     sum (map (fun b => cost ts b * uses s b) all_bytes) + d * sum (map (uses s) (filter (has_byte ts) all_bytes))
     = S d * sum (map (uses s) all_bytes)).
  { intros ts Vt. rewrite <- (weighted_sum (has_byte ts)). f_equal. apply sum_ext. intros b _.
    rewrite (bits_cost _ _ _ _ b Vt Hb), Ed. reflexivity. }
  pose proof (E _ V) as E1. pose proof (E _ V') as E2.
  assert (G : sum (map (uses s) (filter (has_byte (st_token_set s)) all_bytes)) <= sum (map (uses s) (filter (has_byte new) all_bytes))).
  { transitivity (sum (map (uses s) (firstn m (ranked s)))).
    - apply top_sum.
      + apply ranked_sorted.
      + apply NoDup_filter, NoDup_all_bytes.
      + intros b _. apply (Permutation_in _ (Permutation_sym (ranked_perm s))), in_all_bytes.
      + pose proof (bytes_count _ _ _ _ V Hb). lia.
    - apply Nat.eq_le_incl, sum_perm, Permutation_map, NoDup_Permutation.
      + apply NoDup_firstn, ranked_nodup.
      + apply NoDup_filter, NoDup_all_bytes.
      + intros b. rewrite filter_In, has_byte_spec, Hn. pose proof (in_all_bytes b). tauto. }
  nia.
Qed.

(** ** The byte optimizer on bits sets does not lose tokens when given at least
    as many tokens as before. *)
Lemma simple_bytes_gain t p sp s n : is_bits t -> sized s -> visited t p sp (st_token_set s) ->
  lo t <= n <= hi t -> base_size (st_token_set s) <= n ->
  exists ts', simple_bytes s n = Ret ts' /\ spent s (cost ts') <= spent s (cost (st_token_set s)) /\
   forall q x, piece_string (st_token_set s) q = Some x -> 1 < length x ->
     exists q', piece_string ts' q' = Some x /\ length (piece_tokens ts' q') <= length (piece_tokens (st_token_set s) q).
Proof.
  intros Hb Hz V Hn Hbase. destruct (simple_bytes_visited t p sp s n Hb Hz V Hn) as (ts0 & Hf & E & V' & B' & _).
  set (chosen := firstn (n - lo t) (ranked s)) in *. set (ls := longs (str_tokens (st_token_set s))) in *.
  eexists. split; [exact E|].
  pose proof (fun x => bits_with_tokens ts0 chosen ls x (bits_fresh_no_str _ _ _ _ x Hf)) as Ht. split.
  - apply (top_bytes_spent t p sp s (n - lo t)); auto; [|lia].
    intros b. rewrite Ht, in_app_iff. split.
    + intros [H|H]; [apply in_map_iff in H as (b' & Eb & H); injection Eb as ->; exact H|].
      unfold ls in H. apply in_longs in H as (_ & H). cbn in H. lia.
    + intros H. left. apply in_map_iff. eauto.
  - intros q x Hq Hx. destruct q as [i|i]; cbn in Hq.
    + destruct (nth_error (tokens (st_token_set s)) i) as [[y|]|] eqn:Ei; try discriminate. injection Hq as ->.
      assert (Hi : In (Str x) (tokens (bits_with ts0 chosen ls))).
      { apply Ht, in_app_iff. right. unfold ls. apply in_longs. split; [apply in_str_tokens; eapply nth_error_In; exact Ei|exact Hx]. }
      apply In_nth_error in Hi as (j & Hj). exists (PTok j). cbn. rewrite Hj. auto.
    + exfalso. destruct (nth_error (sequences (st_token_set s)) i) as [q|] eqn:Ei; [|discriminate]. injection Hq as Hq.
      pose proof (visited_single _ _ _ _ V q (nth_error_In _ _ Ei)). rewrite Hq in H. lia.
Qed.

(** ** Adding a byte *)
Lemma is_huff_dec t : t = BytesHuff \/ t <> BytesHuff.
Proof. destruct t; (left; reflexivity) || (right; discriminate). Qed.

Section Add.
Variables (samples : list bstr) (init : option nat) (t : token_type) (p : processing) (sp : bool).
Hypothesis Hsp : t = BytesHuff -> sp = true.

(** No byte can be added: other types, or a code with all bytes. *)
Definition settled (ts : tokenset) : Prop := t <> BytesHuff \/ base_size ts = 258.

Definition added (ts ts' : tokenset) : Prop :=
  visited t p sp ts' /\ ntokens ts' = S (ntokens ts) /\
  (settled ts -> settled ts' /\ forall N N', total_for ts samples N -> total_for ts' samples N' -> N' <= N).

Lemma add_byte_ok ts s : answered samples t p sp ts s -> (is_bits t -> base_size ts < hi t) ->
  exists r, add_byte (optimizer_for t) s = Ret r /\
  forall ts' g, r = Some (ts', g) -> added ts ts'.
Proof.
  intros A Hb. pose proof (an_visited A) as V. pose proof (vi_usable _ _ _ _ V) as Hu. pose proof (an_sized A) as Hz.
  destruct (an_tallied A) as (pss & T).
  unfold add_byte. rewrite (count_tokens_ok _ s Hu Hz). cbn [bind].
  rewrite checked_sub_le by apply n_long_le. cbn [bind]. fold (base_size (st_token_set s)).
  assert (Ebase : base_size (st_token_set s) = base_size ts) by (unfold base_size; rewrite (an_ntokens A), (an_long A); reflexivity).
  pose proof (base_range _ _ _ _ V) as R. rewrite Ebase in R.
  destruct (bytes_optimizer_visited t p sp s (base_size (st_token_set s) + 1) Hsp Hz V) as (ts' & E & V' & B' & L').
  - rewrite Ebase. lia.
  - intros H. specialize (Hb H). rewrite Ebase. lia.
  - rewrite E. cbn [bind]. destruct (Nat.eqb_spec (ntokens ts') (ntokens (st_token_set s))) as [En|En].
    + eexists. split; [reflexivity|]. discriminate.
    + rewrite (count_tokens_ok _ s (vi_usable _ _ _ _ V') Hz). cbn [bind]. eexists. split; [reflexivity|].
      intros ts1 g E1. injection E1 as <- _. split; [exact V'|]. split.
      * rewrite (base_ntokens ts'), (base_ntokens (st_token_set s)), L', B' in En.
        rewrite (base_ntokens ts'), L', B', (base_ntokens ts), (an_long A). lia.
      * intros Hset. assert (Ht : t <> BytesHuff).
        { destruct (is_huff_dec t) as [Eh|Eh]; [|exact Eh]. destruct Hset as [Hset|H258]; [exact Hset|]. exfalso. apply En.
          rewrite (base_ntokens ts'), (base_ntokens (st_token_set s)), L', B', Ebase, H258, Eh. reflexivity. }
        split; [left; exact Ht|]. intros N N' HN (qss & Hq & ->).
        assert (Hbits : is_bits t).
        { destruct t; unfold is_bits; auto; try congruence. exfalso. cbn in E. injection E as <-. congruence. }
        destruct (simple_bytes_gain t p sp s (base_size (st_token_set s) + 1) Hbits Hz V) as (ts2 & E2 & G1 & G2).
        { specialize (Hb Hbits). rewrite Ebase. lia. }
        { lia. }
        assert (Eo : optimizer_for t = simple_bytes) by (destruct Hbits as [->|[->| ->]]; reflexivity).
        rewrite Eo, E2 in E. injection E as ->.
        pose proof (exchange_bound _ ts' samples pss qss s T Hu (visited_heads_free _ _ _ _ V Ht) (vi_usable _ _ _ _ V') G2 Hq) as X.
        rewrite (total_unique _ _ _ _ HN (an_total A)). lia.
Qed.

(** ** Adding a pair *)
Lemma add_pair_ok ts s : answered samples t p sp ts s ->
  (exists pss, tallied (st_token_set s) samples pss s /\ pairs_tallied (st_token_set s) pss s) ->
  exists r, add_token_bpe s = Ret r /\ forall ts' g, r = Some (ts', g) -> added ts ts' /\
    forall N N', total_for ts samples N -> total_for ts' samples N' -> N' <= N.
Proof.
  intros A (pss & T & P). pose proof (an_visited A) as V. pose proof (vi_usable _ _ _ _ V) as Hu.
  destruct (add_token_bpe_ok _ _ _ _ T P Hu) as [(E & _)|(x & c & E & (k & Hk) & _)].
  - exists None. split; [exact E|]. discriminate.
  - eexists. split; [exact E|]. intros ts' g E'. injection E' as <- _.
    destruct (candidate_new _ _ _ _ T Hu x k Hk) as (Hl & Hn & Hc).
    assert (Hns : ~ In x (strings (st_token_set s))).
    { intros Hi. unfold strings in Hi. fold (str_tokens (st_token_set s)) in Hi. apply in_app_iff in Hi as [Hi|Hi].
      - apply in_str_tokens in Hi. contradiction.
      - apply in_map_iff in Hi as (q & Eq & Hq). pose proof (visited_single _ _ _ _ V q Hq) as H1. rewrite Eq in H1. lia. }
    destruct (visited_add _ _ _ _ x V Hl Hns) as (V' & N' & L').
    assert (Hmono : forall N N', total_for ts samples N -> total_for (add_token_unchecked (st_token_set s) x) samples N' -> N' <= N).
    { intros N N1 HN HN'. rewrite (total_unique _ _ _ _ HN (an_total A)).
      eapply total_dict_le; [apply add_token_dict_le, (visited_nonempty _ _ _ _ V)|exact HN'|eapply tallied_total; exact T]. }
    split; [|exact Hmono]. split; [exact V'|]. split; [rewrite N', (an_ntokens A); reflexivity|]. intros Hset. split; [|exact Hmono].
    destruct Hset as [Ht|Hb]; [left; exact Ht|right]. unfold base_size in *. rewrite N', L', (an_ntokens A), (an_long A). lia.
Qed.

Lemma opt_add_token_ok ts S (Q : option tokenset -> Prop) : visited t p sp ts -> (is_bits t -> base_size ts < hi t) ->
  Q None -> (forall ts', added ts ts' -> Q (Some ts')) ->
  ok samples init (opt_add_token (optimizer_for t) ts) S Q.
Proof.
  intros V Hb HN HS. unfold opt_add_token. apply ok_stats_pairs; [apply (visited_askable t p sp); exact V|]. intros s Hf.
  destruct (fresh_answered samples init t p sp (WithPairs ts) s V Hf) as (A & P). cbn [requested] in A.
  destruct (add_byte_ok ts s A Hb) as (r1 & E1 & H1). destruct (add_pair_ok ts s A (P ts eq_refl)) as (r2 & E2 & H2).
  eapply ok_done; [exact E1|]. eapply ok_done; [exact E2|]. apply ok_ret.
  destruct r1 as [[t1 g1]|], r2 as [[t2 g2]|]; auto.
  - destruct (Z.of_nat g2 <? g1)%Z; apply HS; [eapply H1; reflexivity|eapply H2; reflexivity].
  - apply HS. eapply H1; reflexivity.
  - apply HS. eapply H2; reflexivity.
Qed.
End Add.
