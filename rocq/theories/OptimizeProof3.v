(** * The byte optimizers keep the invariant. *)
From Verif Require Import Base BaseLemmas TokenSetModel TokenizerModel TokSpec SortLemmas TokenizerProof1 TokenizerProof2
  TokenizerTheory TokenSetProof TokenSetProof2 PropTokenizer PropTokenSet
  PropJson Shaped OptBytesModel OptBytesProof OptBytesProof2
  OptBytesProof3 OptBytesProof4 PropOptBytes OptimizeModel OptimizeProof2.

(** ** Lengths of byteshuff codes *)
Lemma ret_inj {A} (a b : A) : Ret a = Ret b -> a = b.
Proof. intros H. injection H. auto. Qed.

Lemma ext_len fuel : forall counts n_ext encs, optimize_ext_encoding fuel counts n_ext = Ret encs ->
  forall e, In e encs -> length (snd e) <= S fuel.
Proof.
  induction fuel as [|fuel IH]; intros counts n_ext encs H; cbn [optimize_ext_encoding] in H;
    (destruct (length counts <=? n_ext);
     [injection H as <-; intros e He; apply in_map_iff in He as (x & <- & _); cbn; lia|]); [discriminate|].
  apply bind_ret in H as (splits & _ & H). revert H.
  apply (mfold_inv (fun encs : list (byte * list nat) => forall e, In e encs -> length (snd e) <= S (S fuel))).
  - intros acc [i s] acc' _ Hacc H. apply bind_ret in H as (sub & _ & H).
    assert (Hacc' : forall e, In e (acc ++ [(cs_top s, [i])]) -> length (snd e) <= S (S fuel)).
    { intros e He. apply in_app_iff in He as [He|[<-|[]]]; [auto|cbn; lia]. }
    destruct sub as [sub|]; [|injection H as <-; exact Hacc'].
    apply bind_ret in H as (se & Hse & H). injection H as <-. intros e He. apply in_app_iff in He as [He|He]; [auto|].
    apply in_map_iff in He as (e0 & <- & He0). cbn. specialize (IH _ _ _ Hse e0 He0). lia.
  - intros e [].
Qed.

Lemma sub_table_len counts splits i sp sub : sub_table counts splits i sp = Ret (Some sub) -> length sub <= length counts.
Proof.
  unfold sub_table. intros H. apply bind_ret in H as (lo & _ & H). apply bind_ret in H as (hi & _ & H).
  destruct (hi =? lo + 1); [discriminate|]. apply bind_ret in H as (s & Hs & H). apply bind_ret in H as (ti & _ & H).
  apply bind_ret in H as (s' & Hs' & H). injection H as <-.
  unfold slice in Hs. destruct (_ && _); [|discriminate]. injection Hs as <-.
  unfold vremove in Hs'. destruct (ti <? _) eqn:Et; [|discriminate]. injection Hs' as <-.
  rewrite app_length. apply Nat.ltb_lt in Et.
  change (match firstn (hi - lo) (skipn lo counts) with [] => [] | _ :: l => skipn ti l end)
    with (skipn (S ti) (firstn (hi - lo) (skipn lo counts))).
  rewrite !skipn_length, !firstn_length, !skipn_length in *. lia.
Qed.

Lemma bytes_tokenset_len counts n_char n_ext p ts : optimize_bytes_tokenset counts n_char n_ext p = Ret ts ->
  forall q, In q (sequences ts) -> length (seq_tokens q) <= S (S (length counts)).
Proof.
  unfold optimize_bytes_tokenset. intros H. apply bind_ret in H as (ts0 & H0 & H). apply bind_ret in H as (splits & _ & H).
  unfold ts_new in H0. apply assert_that_bind in H0 as (_ & H0). injection H0 as <-. revert H.
  apply (mfold_inv (fun t => forall q, In q (sequences t) -> length (seq_tokens q) <= S (S (length counts)))).
  - intros t [i sp] t' _ Ht H. apply bind_ret in H as ([t1 id] & H1 & H). apply bind_ret in H as (sub & Hsub & H).
    unfold add_token in H1. apply assert_that_bind in H1 as (_ & H1). injection H1 as <- <-.
    assert (Ht1 : forall q, In q (sequences (add_token_unchecked t [cs_top sp])) -> length (seq_tokens q) <= S (S (length counts))).
    { intros q Hq. cbn in Hq. apply filter_In in Hq as (Hq & _). auto. }
    destruct sub as [sub|]; [|injection H as <-; exact Ht1].
    apply bind_ret in H as (encs & He & H). injection H as <-.
    pose proof (sub_table_len _ _ _ _ _ Hsub) as Hl. pose proof (ext_len _ _ _ _ He) as Hel.
    revert Ht1. generalize (add_token_unchecked t [cs_top sp]). clear He. induction encs as [|e encs IH]; intros t0 Ht0; cbn [fold_left]; [exact Ht0|].
    apply IH; [intros e' He'; apply Hel; right; exact He'|]. intros q Hq. cbn in Hq. apply in_app_iff in Hq as [Hq|[<-|[]]]; [auto|].
    cbn. specialize (Hel e (or_introl eq_refl)). lia.
  - intros q [].
Qed.

Lemma huff_len s n ts : single_strings (st_token_set s) -> huff_bytes s n = Ret ts ->
  forall q, In q (sequences ts) -> length (seq_tokens q) <= 258.
Proof.
  intros Hs H. unfold huff_bytes in H. apply bind_ret in H as (counts & Hc & H).
  destruct (huff_counts_ok s Hs) as (Hc' & F). rewrite Hc in Hc'. apply ret_inj in Hc'. rewrite <- Hc' in F.
  pose proof (full_length _ F) as Hlen.
  apply bind_ret in H as (n1 & _ & H). apply bind_ret in H as (best & Hb & H).
  apply bind_ret in H as ([b tot] & Hu & H). destruct best as [[b' tot']|]; [|discriminate]. cbn in Hu. injection Hu as -> ->.
  rewrite add_long_ok in H. injection H as <-.
  assert (G : forall q, In q (sequences b) -> length (seq_tokens q) <= 258).
  { assert (G0 : forall t tt, Some (b, tot) = Some (t, tt) -> forall q, In q (sequences t) -> length (seq_tokens q) <= 258).
    { revert Hb. apply (mfold_inv (fun o : option (tokenset * nat) => forall t tt, o = Some (t, tt) -> forall q, In q (sequences t) -> length (seq_tokens q) <= 258)).
      - intros o e o' _ Ho Hr. unfold huff_round in Hr. apply bind_ret in Hr as (nb & _ & Hr).
        apply bind_ret in Hr as (t0 & Ht0 & Hr). apply bind_ret in Hr as (tt0 & _ & Hr).
        pose proof (bytes_tokenset_len _ _ _ _ _ Ht0) as Hl. rewrite Hlen in Hl.
        destruct o as [[ob oc]|].
        + destruct (tt0 <? oc); injection Hr as <-; [intros t tt E; injection E as <- <-; exact Hl|exact Ho].
        + injection Hr as <-. intros t tt E; injection E as <- <-; exact Hl.
      - intros t tt E; discriminate. }
    eapply G0; reflexivity. }
  intros q Hq. rewrite fold_add_unchecked in Hq. cbn [sequences] in Hq. apply filter_In in Hq as (Hq & _). auto.
Qed.

(** ** The three optimizers *)
Lemma fits_bits t base : is_bits t -> fits_type t base -> base = lo t /\ hi t = base + 256.
Proof. intros [->|[->| ->]]; cbn; intros ->; auto. Qed.

Lemma digits_bits t p sp ts0 base k enc : bits_fresh t p sp = Some ts0 -> ts0 = bits_set base t p sp enc -> good_enc base k enc ->
  k = digits_of t.
Proof.
  intros Hf E He. destruct (bits_set_fields base t p sp enc) as (_ & _ & E3).
  assert (Hi : In (mkSeq [n2b 0] (enc 0)) (sequences ts0)).
  { rewrite E, E3. apply in_map_iff. exists 0. split; [reflexivity|apply in_seq; lia]. }
  assert (G : forall base' enc' k', ts0 = bits_set base' t p sp enc' -> good_enc base' k' enc' -> k' = k).
  { intros base' enc' k' E' He'. destruct (bits_set_fields base' t p sp enc') as (_ & _ & E3').
    rewrite E', E3' in Hi. apply in_map_iff in Hi as (c & Ec & _). injection Ec as _ Ec.
    rewrite <- (ge_len _ _ _ He 0), <- (ge_len _ _ _ He' c). congruence. }
  destruct t; cbn [bits_fresh] in Hf; try discriminate; injection Hf as Hf; cbn [digits_of].
  - symmetry. apply (G 2 enc1); [rewrite <- Hf; apply new_bits1_eq|apply good_enc1].
  - symmetry. apply (G 4 enc2); [rewrite <- Hf; apply new_bits2_eq|apply good_enc2].
  - symmetry. apply (G 16 enc4); [rewrite <- Hf; apply new_bits4_eq|apply good_enc4].
Qed.

(** The set [SimpleBytesOptimizer] builds. *)
Definition bits_with (ts0 : tokenset) (chosen : list byte) (ls : list bstr) : tokenset :=
  fold_left add_token_unchecked (singles chosen ++ ls) ts0.

Lemma visited_bits_with t p sp ts0 chosen ls : is_bits t -> bits_fresh t p sp = Some ts0 -> NoDup chosen -> NoDup ls ->
  (forall x, In x ls -> 1 < length x) ->
  visited t p sp (bits_with ts0 chosen ls) /\ base_size (bits_with ts0 chosen ls) = lo t + length chosen /\
  n_long_tokens (bits_with ts0 chosen ls) = length ls.
Proof.
  intros Hbits Hf Hc Hnl Hl. unfold bits_with.
  destruct (bits_fresh_inv _ _ _ _ Hf) as (base & k & enc & E0 & Henc & Hbf & Hfit & Hb16 & Hk & Hb2).
  destruct (fits_bits t base Hbits Hfit) as (Elo & Ehi).
  assert (Els : longs ls = ls) by (apply longs_id; exact Hl).
  assert (Hnd : NoDup (singles chosen ++ ls)) by (rewrite <- Els; apply byte_long_nodup; assumption).
  assert (Hne : ~ In [] (singles chosen ++ ls)) by (rewrite <- Els; apply byte_long_nonempty).
  assert (S0 : shaped ts0 []) by (rewrite E0; eapply shaped_bits_set; eauto).
  assert (U0 : usable ts0) by (rewrite E0; apply usable_bits_set).
  assert (T0 : ts_type ts0 = t /\ ts_processing ts0 = p /\ split_paragraphs ts0 = sp /\ n_ext_tokens ts0 = base) by (rewrite E0; auto).
  assert (Q0 : forall q, In q (sequences ts0) -> exists c, c < 256 /\ q = mkSeq [n2b c] (enc c)).
  { intros q Hq. destruct (bits_set_fields base t p sp enc) as (_ & _ & E3). rewrite E0, E3 in Hq.
    apply in_map_iff in Hq as (c & <- & Hi). apply in_seq in Hi. exists c. split; [lia|reflexivity]. }
  assert (K0 : tokens ts0 = ext_tokens base).
  { destruct (bits_set_fields base t p sp enc) as (_ & E2 & _). rewrite E0. exact E2. }
  assert (Ss : shaped (fold_left add_token_unchecked (singles chosen ++ ls) ts0) (singles chosen ++ ls)).
  { apply (shaped_fold (singles chosen ++ ls) ts0 [] S0 Hnd Hne). intros x _ []. }
  assert (Kd : k = digits_of t) by (eapply digits_bits; eauto).
  destruct T0 as (T1 & T2 & T3 & T4). clear E0 Hbf.
  assert (Eb : base_size (fold_left add_token_unchecked (singles chosen ++ ls) ts0) = lo t + length chosen).
  { rewrite (base_shaped _ _ Ss). rewrite fold_add_unchecked; cbn [n_ext_tokens]. rewrite T4, <- Elo. f_equal.
    unfold shorts. rewrite filter_app, app_length.
    rewrite filter_id by (intros x Hx; apply in_map_iff in Hx as (b & <- & _); reflexivity). rewrite map_length.
    replace (filter _ ls) with (@nil bstr); [cbn; lia|]. clear -Hl. induction ls as [|x ls IH]; [reflexivity|]. cbn [filter].
    rewrite (proj2 (Nat.ltb_lt _ _)) by (apply Hl; left; reflexivity). cbn [negb]. apply IH. intros y Hy. apply Hl; right; exact Hy. }
  split; [|split; [exact Eb|]].
  - split.
    + eauto.
    + apply usable_fold; auto. intros x _. rewrite (str_tokens_shaped ts0 [] (sh_tokens _ _ S0)). intros [].
    + rewrite fold_add_unchecked. exact T1.
    + rewrite fold_add_unchecked. exact T2.
    + intros _. rewrite fold_add_unchecked. exact T3.
    + rewrite fold_add_unchecked. unfold denotes. cbn [tokens sequences]. intros d Hd. apply in_map_iff in Hd as (q & <- & Hq).
      apply filter_In in Hq as (Hq & _). destruct (Q0 q Hq) as (c & Hc256 & ->). cbn [seq_string seq_tokens]. split; [reflexivity|].
      assert (G : length (map (nth_error (tokens ts0 ++ map Str (singles chosen ++ ls))) (enc c)) = digits_of t /\
                  Forall ext_tok (map (nth_error (tokens ts0 ++ map Str (singles chosen ++ ls))) (enc c))).
      { split; [rewrite map_length, (ge_len _ _ _ Henc); exact Kd|]. apply Forall_map, Forall_forall. intros d Hd.
        pose proof (ge_bound _ _ _ Henc c d Hc256 Hd) as Hlt. exists (n2b d). rewrite K0.
        unfold ext_tokens. rewrite nth_error_app1 by (rewrite map_length, seq_length; exact Hlt).
        rewrite nth_error_map, nth_error_seq0 by exact Hlt. reflexivity. }
      cbn [snd]. destruct Hbits as [->|[->| ->]]; exact G.
    + intros ->. destruct Hbits as [E|[E|E]]; discriminate.
  - rewrite (shaped_long _ _ Ss), longs_app, longs_singles. cbn [app]. rewrite Els. reflexivity.
Qed.

Lemma bits_fresh_some t p sp : is_bits t -> exists ts0, bits_fresh t p sp = Some ts0.
Proof. intros [->|[->| ->]]; eexists; reflexivity. Qed.

Lemma simple_bytes_visited t p sp s n : is_bits t -> sized s -> visited t p sp (st_token_set s) ->
  lo t <= n <= hi t ->
  exists ts0, bits_fresh t p sp = Some ts0 /\
    simple_bytes s n = Ret (bits_with ts0 (firstn (n - lo t) (ranked s)) (longs (str_tokens (st_token_set s)))) /\
    let ts' := bits_with ts0 (firstn (n - lo t) (ranked s)) (longs (str_tokens (st_token_set s))) in
    visited t p sp ts' /\ base_size ts' = n /\ n_long_tokens ts' = n_long_tokens (st_token_set s).
Proof.
  intros Hb Hz V Hn. destruct (bits_fresh_some t p sp Hb) as (ts0 & Hf). exists ts0. split; [exact Hf|].
  destruct (vi_shaped _ _ _ _ V) as (ss & S).
  assert (Ee : n_ext_tokens (st_token_set s) = lo t /\ hi t = lo t + 256).
  { pose proof (sh_fits _ _ S) as F. rewrite (vi_type _ _ _ _ V) in F. destruct (fits_bits _ _ Hb F). split; congruence. }
  destruct Ee as (Ee & Eh).
  assert (Els : longs (longs (str_tokens (st_token_set s))) = longs (str_tokens (st_token_set s)))
    by (apply longs_id; intros x Hx; apply in_longs in Hx; apply Hx).
  split.
  - rewrite (simple_bytes_eq s n ts0 Hz (vi_usable _ _ _ _ V)).
    + rewrite Ee. rewrite (proj2 (Nat.leb_le _ _)), (proj2 (Nat.leb_le _ _)) by lia. reflexivity.
    + rewrite (vi_type _ _ _ _ V), (vi_proc _ _ _ _ V), (vi_para _ _ _ _ V) by (destruct Hb as [->|[->| ->]]; discriminate). exact Hf.
  - cbn zeta. destruct (visited_bits_with t p sp ts0 (firstn (n - lo t) (ranked s)) (longs (str_tokens (st_token_set s))) Hb Hf) as (V' & B' & L').
    + apply NoDup_firstn, ranked_nodup.
    + apply NoDup_filter. rewrite (str_tokens_shaped _ _ (sh_tokens _ _ S)). apply (sh_nodup _ _ S).
    + intros x Hx. apply in_longs in Hx. apply Hx.
    + split; [exact V'|]. split; [rewrite B', firstn_length, ranked_length; lia|].
      rewrite L', (shaped_long _ _ S), (str_tokens_shaped _ _ (sh_tokens _ _ S)). reflexivity.
Qed.

Lemma huff_bytes_visited p sp s n : sp = true -> single_strings (st_token_set s) -> usable (st_token_set s) ->
  ts_processing (st_token_set s) = p -> 3 <= n ->
  exists ts', huff_bytes s n = Ret ts' /\ visited BytesHuff p sp ts' /\ base_size ts' = Nat.min n 258 /\
    n_long_tokens ts' = n_long_tokens (st_token_set s).
Proof.
  intros -> Hs Hu Hp Hn.
  destruct (C37_huffman_size s n Hs Hn) as (ts1 & E1 & Hnt & Hnl & _).
  destruct (huff_bytes_ok s n Hs Hn) as (counts & n_ext & tops & qs & _ & _ & E & Hr & Hlt & Hlen & Hc & _).
  rewrite E1 in E. injection E as E. rewrite Hp in E.
  exists ts1. split; [exact E1|].
  set (ls := longs (str_tokens (st_token_set s))) in *.
  assert (Hnd : NoDup ls).
  { apply NoDup_filter. destruct Hu as (Hu & _). unfold strings in Hu. apply NoDup_app_iff in Hu. apply Hu. }
  assert (Hl : forall x, In x ls -> 1 < length x) by (intros x Hx; apply in_longs in Hx; apply Hx).
  assert (Eb : base_size ts1 = Nat.min n 258) by (unfold base_size; rewrite Hnt, Hnl; lia).
  pose proof (huff_len s n ts1 Hs E1) as Hlens.
  split; [|auto]. rewrite E in *. clear E. split.
  - eexists. apply huff_set_shaped; auto. lia.
  - apply huff_set_usable; assumption.
  - reflexivity.
  - reflexivity.
  - congruence.
  - intros d Hd. apply in_map_iff in Hd as (q & <- & Hq). cbn [huff_set sequences] in Hq.
    destruct (hc_form _ _ _ _ Hc q Hq) as (b & h & enc & Eq & Hh & He & Hd).
    split; [rewrite Eq; reflexivity|]. split; [cbn [denotes snd]; rewrite map_length; apply Hlens; exact Hq|].
    rewrite Eq. cbn [denotes snd seq_tokens]. apply Forall_map, Forall_forall. intros j [<-|Hj].
    + right. destruct (huff_set_nth_top n_ext p tops ls qs h Hh) as (c & Ec). exists c. exact Ec.
    + left. exists (n2b j). apply huff_set_nth_ext. apply Hd; exact Hj.
  - intros _. rewrite Eb. lia.
Qed.

Lemma noop_bytes_visited p sp s n : visited Bytes p sp (st_token_set s) -> 256 <= n ->
  exists ts', noop_bytes s n = Ret ts' /\ visited Bytes p sp ts' /\ base_size ts' = Nat.min n 256 /\
    n_long_tokens ts' = n_long_tokens (st_token_set s).
Proof.
  intros V Hn. exists (st_token_set s). split; [reflexivity|]. split; [exact V|]. split; [|reflexivity].
  pose proof (base_range _ _ _ _ V) as R. cbn in R. lia.
Qed.

Theorem bytes_optimizer_visited t p sp s n : (t = BytesHuff -> sp = true) -> sized s ->
  visited t p sp (st_token_set s) -> lo t <= n -> (is_bits t -> n <= hi t) ->
  exists ts', optimizer_for t s n = Ret ts' /\ visited t p sp ts' /\ base_size ts' = Nat.min n (hi t) /\
    n_long_tokens ts' = n_long_tokens (st_token_set s).
Proof.
  intros Hsp Hz V Hlo Hhi.
  assert (B : is_bits t -> exists ts', simple_bytes s n = Ret ts' /\ visited t p sp ts' /\ base_size ts' = Nat.min n (hi t) /\
    n_long_tokens ts' = n_long_tokens (st_token_set s)).
  { intros Hb. destruct (simple_bytes_visited t p sp s n Hb Hz V) as (ts0 & _ & E & V' & B' & L'); [specialize (Hhi Hb); lia|].
    eexists. split; [exact E|]. split; [exact V'|]. split; [specialize (Hhi Hb); lia|exact L']. }
  unfold is_bits in B. destruct t; cbn [optimizer_for]; [apply B; auto..|apply noop_bytes_visited; assumption|].
  apply huff_bytes_visited; [auto|eapply visited_single; exact V|apply (vi_usable _ _ _ _ V)|apply (vi_proc _ _ _ _ V)|exact Hlo].
Qed.
