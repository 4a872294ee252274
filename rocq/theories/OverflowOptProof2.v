(** * Machine arithmetic in the steps of the search. *)
From Coq Require Import ZArith.
From Verif Require Import Base BaseLemmas TokenSetModel TokenizerModel TokSpec SortLemmas TokenizerProof1 TokenizerProof2
  TokenizerTheory TokenSetProof TokenSetProof2 PropTokenizer PropTokenSet StatsAlgebra BatchModel PropBatch
  PropJson Shaped CacheModel PropCache OptBytesModel OptBytesProof OptBytesProof2
  OptBytesProof3 OptBytesProof4 PropOptBytes OptimizeModel OptimizeProof1 OptimizeProof2 OptimizeProof3 OptimizeProof4 OptimizeProof5 OptimizeProof6
  OptimizeProof7 OverflowModel PropOverflow OverflowOptModel OverflowOptProof1.

(** What the search may assume of statistics of [L] bytes *)
Record moderate (L : nat) (s : stats) : Prop := {
  mo_tokens : sum (token_counts s) <= 258 * L;
  mo_seqs : sum (seq_counts s) <= L;
  mo_pairs : forall c, In c (pair_counts s) -> c <= L
}.

Lemma sum_counts_le {A} (dec : forall x y : A, {x = y} + {x <> y}) xs : forall l, NoDup l -> sum (map (count_occ dec xs) l) <= length xs.
Proof.
  induction xs as [|x xs IH]; intros l Hl.
  - cbn [length]. replace (map (count_occ dec []) l) with (map (fun _ : A => 0) l) by (apply map_ext; reflexivity).
    rewrite (sum_zero (fun _ : A => 0) l) by reflexivity. lia.
  - assert (G : sum (map (count_occ dec (x :: xs)) l) <= sum (map (count_occ dec xs) l) + 1).
    { clear IH. induction Hl as [|y l Hy Hl IH]; [cbn; lia|]. cbn [map]. rewrite !sum_cons.
      destruct (dec x y) as [->|Hne].
      - rewrite count_occ_cons_eq by reflexivity.
        assert (E : map (count_occ dec (y :: xs)) l = map (count_occ dec xs) l).
        { apply map_ext_in. intros z Hz. apply count_occ_cons_neq. intros ->. contradiction. }
        rewrite E. lia.
      - rewrite count_occ_cons_neq by exact Hne. lia. }
    specialize (IH l Hl). cbn [length]. lia.
Qed.

Section Bounds.
Variables (samples : list bstr) (init : option nat) (t : token_type) (p : processing) (sp : bool).

Lemma fresh_moderate r a : visited t p sp (requested r) -> fresh_answer samples init r a -> moderate (length (concat samples)) a.
Proof.
  intros V F. destruct (fresh_answered samples init t p sp r a V F) as (A & P). pose proof (an_visited A) as Va.
  destruct (an_tallied A) as (pss & T).
  destruct (proj2 (C01_tokenizer_exists_iff_usable _) (vi_usable _ _ _ _ Va)) as (tk & Htk).
  assert (Hseg : segments (st_token_set a) (concat pss) (concat samples)).
  { apply segments_concat. pose proof (ta_opt _ _ _ _ T) as Ho. clear -Ho. induction Ho as [|x y l l' Hx _ IH]; constructor; [apply Hx|exact IH]. }
  assert (Hq : forall q, In q (sequences (st_token_set a)) -> length (seq_tokens q) <= 258).
  { intros q Hq. destruct (vi_seqs _ _ _ _ Va (denotes _ q) (in_map _ _ _ Hq)) as (_ & H). cbn [denotes snd] in H.
    rewrite map_length in H. destruct t; cbn [digits_of] in H; lia. }
  destruct (pieces_bound (st_token_set a) tk 258 Htk ltac:(lia) Hq _ _ Hseg) as (L1 & L2).
  split.
  - rewrite (sum_nth (token_counts a)), (ta_ntok _ _ _ _ T).
    rewrite (map_ext _ (count_occ Nat.eq_dec (stream (st_token_set a) (concat pss)))) by (intros i; apply (ta_tok _ _ _ _ T)).
    etransitivity; [apply sum_counts_le, seq_NoDup|exact L2].
  - rewrite (sum_nth (seq_counts a)), (ta_nseq _ _ _ _ T).
    rewrite (map_ext _ (fun q => count_occ piece_eq_dec (concat pss) (PSeq q))) by (intros i; apply (ta_seq _ _ _ _ T)).
    rewrite <- (map_map PSeq (count_occ piece_eq_dec (concat pss))).
    etransitivity; [apply sum_counts_le|exact L1]. apply FinFun.Injective_map_NoDup; [intros x y E; congruence|apply seq_NoDup].
  - destruct F as (ts' & s & Hs & Hf & Ea). rewrite Ea. destruct r as [ts|ts]; [|intros c []].
    unfold tokenize_file_sync in Hf. apply bind_ret in Hf as (tk' & Htk' & Hf). apply bind_ret in Hf as ((s', b) & Hp & Hf). injection Hf as ->.
    assert (Es : st_token_set a = ts').
    { rewrite Ea. destruct (visited_sort _ _ _ _ _ V Hs) as (V' & _ & _). destruct (sync_tallied ts' samples init s) as (pss' & T' & _).
      - unfold tokenize_file_sync. rewrite Htk'. cbn [bind]. rewrite Hp. reflexivity.
      - apply (visited_range _ _ _ _ V').
      - apply (ta_set _ _ _ _ T'). }
    rewrite Es in Va, Hq.
    set (M := S (258 * length (concat samples) + ntokens ts' * ntokens ts')).
    destruct (all_w M ts' tk' 258 Htk' (visited_range _ _ _ _ Va) ltac:(lia) Hq samples 0 (stats_new ts' init) [] (matches_new ts' init) (new_bounds ts' 258 ltac:(lia) init)) as (_ & s2 & b2 & E2 & _ & B).
    { unfold M. lia. }
    { unfold M. lia. }
    rewrite Hp in E2. injection E2 as <- _. destruct B as [_ _ _ _ B]. rewrite Forall_forall in B. exact B.
Qed.
End Bounds.

Lemma uses_sum L s : moderate L s -> sum (map snd (byte_uses s)) <= 259 * L.
Proof.
  intros [H1 H2 _]. unfold byte_uses. rewrite map_app, sum_app.
  assert (G1 : sum (map snd (token_uses s)) <= sum (token_counts s)).
  { clear. unfold token_uses. generalize (tokens (st_token_set s)). induction (token_counts s) as [|c l IH]; intros [|tok toks]; cbn [combine flat_map map]; try (cbn; lia).
    rewrite map_app, sum_app, sum_cons. specialize (IH toks). cbn [fst snd]. destruct tok as [[|b [|]]|]; cbn [map]; rewrite ?sum_cons; change (sum (@nil nat)) with 0; cbn [snd]; lia. }
  assert (G2 : sum (map snd (seq_uses s)) <= sum (seq_counts s)).
  { clear. unfold seq_uses. generalize (sequences (st_token_set s)). induction (seq_counts s) as [|c l IH]; intros [|q qs]; cbn [combine flat_map map]; try (cbn; lia).
    rewrite map_app, sum_app, sum_cons. specialize (IH qs). cbn [fst snd]. destruct (seq_string q) as [|b [|]]; cbn [map]; rewrite ?sum_cons; change (sum (@nil nat)) with 0; cbn [snd]; lia. }
  lia.
Qed.

Lemma spent_bound L s f k : moderate L s -> (forall b, f b <= k) -> spent s f <= k * (259 * L).
Proof.
  intros Hm Hf. unfold spent. transitivity (k * sum (map snd (byte_uses s))); [|apply Nat.mul_le_mono_l, uses_sum, Hm].
  induction (byte_uses s) as [|x l IH]; [cbn; lia|]. cbn [map]. rewrite !sum_cons, Nat.mul_add_distr_l.
  apply Nat.add_le_mono; [apply Nat.mul_le_mono_r, Hf|exact IH].
Qed.

Lemma uses_bound L s b : moderate L s -> uses s b <= 259 * L.
Proof.
  intros Hm. pose proof (uses_sum L s Hm) as H. unfold uses. destruct (find _ _) as [x|] eqn:E; [|lia].
  apply find_some in E as (E & _). pose proof (in_sum _ _ (in_map snd _ _ E)). lia.
Qed.

Lemma count_in_bound L s c : moderate L s -> In c (token_counts s) \/ In c (seq_counts s) -> c <= 259 * L.
Proof. intros [H1 H2 _] [H|H]; apply in_sum in H; lia. Qed.

Section Machine.
Variables (bd : build) (M L : nat).
Hypothesis HM : 512 * 512 * S L <= M.

Lemma HM2 : 2 * (258 * (259 * L)) + 2 < M /\ 258 * (259 * L + 256) < M /\ 2 * (259 * L) + 2 < M /\ 512 < M.
Proof. lia. Qed.

(** ** Bits *)
Lemma simple_counts_w s : sized s -> usable (st_token_set s) -> moderate L s -> w_simple_counts M s = Ret (map Z.of_nat (fold_left wr (byte_uses s) (repeat 0 256))).
Proof.
  intros Hz Hu Hm. pose proof HM2 as (_ & _ & H3 & _). pose proof (simple_counts_ok s Hz) as E. unfold simple_counts in E. apply bind_ret in E as (c1 & E1 & E2).
  assert (R : repeat 0%Z 256 = map Z.of_nat (repeat 0 256)) by (generalize 256; intros k; induction k as [|k IH]; [reflexivity|cbn [repeat map]; rewrite IH; reflexivity]).
  assert (U : forall i c (bc bc' : list nat), idx_upd bc i (fun _ => c) = Ret bc' -> idx_upd (map Z.of_nat bc) i (fun _ => Z.of_nat c) = Ret (map Z.of_nat bc')).
  { intros i c bc bc' E. unfold idx_upd in *. rewrite map_length. destruct (i <? length bc); [|discriminate]. apply ret_inj in E. subst bc'. f_equal.
    clear. revert i. induction bc as [|x bc IH]; intros [|i]; cbn [upd map]; try reflexivity. rewrite IH. reflexivity. }
  assert (G : forall (A : Type) (f : list nat -> A -> outcome (list nat)) (g : list Z -> A -> outcome (list Z)) l,
     (forall bc a bc', In a l -> f bc a = Ret bc' -> g (map Z.of_nat bc) a = Ret (map Z.of_nat bc')) ->
     forall bc r, mfold f l bc = Ret r -> mfold g l (map Z.of_nat bc) = Ret (map Z.of_nat r)).
  { intros A f g l. induction l as [|a l IH]; intros H bc r E; cbn [mfold] in *; [apply ret_inj in E; subst; reflexivity|].
    apply bind_ret in E as (bc' & Ea & E). rewrite (H bc a bc' (or_introl eq_refl) Ea). cbn [bind]. apply IH; [|exact E].
    intros ? ? ? Hi. apply H. right. exact Hi. }
  unfold w_simple_counts. rewrite R.
  match type of E1 with mfold ?f ?l ?b = _ => match goal with |- (_ <- mfold ?g _ _ ;; _) = _ => rewrite (G _ f g l) with (bc := b) (r := c1) end end.
  - cbn [bind]. match type of E2 with mfold ?f ?l _ = _ => apply (G _ f) end; [|exact E2].
    intros bc (i, q) bc' _ E. cbn [fst snd] in *. destruct (seq_string q) as [|b [|]]; try (apply ret_inj in E; subst; reflexivity).
    apply bind_ret in E as (c & Ec & E). rewrite Ec. cbn [bind]. rewrite as_i64_small; [apply U; exact E|].
    apply idx_some, nth_error_In in Ec. pose proof (count_in_bound L s c Hm (or_intror Ec)). lia.
  - intros bc (i, tok) bc' _ E. cbn [fst snd] in *. destruct tok as [[|b [|]]|]; try (apply ret_inj in E; subst; reflexivity).
    apply bind_ret in E as (c & Ec & E). rewrite Ec. cbn [bind]. rewrite as_i64_small; [apply U; exact E|].
    apply idx_some, nth_error_In in Ec. pose proof (count_in_bound L s c Hm (or_introl Ec)). lia.
  - exact E1.
Qed.

Lemma simple_bytes_w s n r : sized s -> usable (st_token_set s) -> moderate L s -> simple_bytes s n = Ret r -> w_simple_bytes bd M s n = Ret r.
Proof.
  intros Hz Hu Hm E. pose proof HM2 as (_ & _ & H3 & _). unfold simple_bytes in E. unfold w_simple_bytes.
  apply bind_ret in E as (nb & E1 & E). rewrite (usub_ref bd M _ _ _ E1). cbn [bind].
  rewrite simple_counts_ok in E by exact Hz. rewrite simple_counts_w by assumption. cbn [bind] in *.
  erewrite (sort_by_key_eq _ (fun b => (- Z.of_nat (uses s b))%Z)); [exact E| |].
  - intros b _. unfold idx. rewrite nth_error_map.
    assert (Hn : nth_error (fold_left wr (byte_uses s) (repeat 0 256)) (b2n b) = Some (uses s b)).
    { apply wr_in; [apply repeat_length|apply byte_uses_nodup; assumption|apply uses_in; assumption]. }
    rewrite Hn. cbn [option_map unwrap bind]. rewrite <- (as_i64_small M) at 1; [apply neg_count|]; pose proof (uses_bound L s b Hm); lia.
  - intros x y. cbv beta. rewrite !simple_count_at by assumption.
    destruct (Nat.leb_spec (uses s y) (uses s x)), (Z.leb_spec (- Z.of_nat (uses s x)) (- Z.of_nat (uses s y))); try reflexivity; lia.
Qed.

(** ** Huffman *)
Lemma table_sum s counts : sized s -> usable (st_token_set s) -> single_strings (st_token_set s) -> moderate L s -> huff_counts s = Ret counts -> full_table counts ->
  tsum counts <= 259 * L + 256 /\ forall l, NoDup l -> sum (map (cnt counts) l) <= tsum counts.
Proof.
  intros Hz Hu Hs Hm E F.
  assert (Eb : tsum counts = sum (map (cnt counts) all_bytes)).
  { unfold tsum. f_equal. rewrite <- (ft_bytes _ F). rewrite map_map.
    apply map_ext_in. intros (b, c) Hi. cbn [fst snd].
    destruct (full_nth counts b F) as (Hn & _). unfold cnt. rewrite (nth_error_nth _ _ _ Hn). cbn [snd].
    assert (Hb : In (b, cnt counts b) counts) by (eapply nth_error_In; exact Hn).
    pose proof (increasing_NoDup _ (full_increasing _ F)) as Nd. clear -Hi Hb Nd.
    induction counts as [|x l IH]; [destruct Hi|]. cbn [map] in Nd. inversion Nd as [|? ? Hx Nd']; subst.
    set (v := cnt (x :: l) b) in *. clearbody v. clear IH. revert Hi Hb. intros [->|Hi] [E|Hb].
    - congruence.
    - exfalso. apply Hx. cbn [fst]. apply in_map_iff. exists (b, v). auto.
    - exfalso. apply Hx. subst x. cbn [fst]. apply in_map_iff. exists (b, c). auto.
    - clear -Hi Hb Nd'. induction l as [|y l IH]; [destruct Hi|]. cbn [map] in Nd'. inversion Nd' as [|? ? Hy Nd2]; subst.
      destruct Hi as [->|Hi], Hb as [E|Hb].
      + congruence.
      + exfalso. apply Hy. apply in_map_iff. exists (b, v). auto.
      + exfalso. apply Hy. subst y. apply in_map_iff. exists (b, c). auto.
      + apply IH; assumption. }
  assert (Ecnt : forall b, cnt counts b = uses s b + 1).
  { intros b. pose proof (huff_counts_ok s Hs) as (E' & _). rewrite E in E'. apply ret_inj in E'. rewrite E'. apply huff_counts_at; assumption. }
  split.
  - rewrite Eb. rewrite (map_ext _ _ Ecnt). rewrite sum_plus.
    pose proof (spent_grouped s (fun _ => 1) Hz Hu) as G. pose proof (spent_bound L s (fun _ => 1) 1 Hm (fun _ => le_n 1)) as G2.
    assert (G3 : sum (map (fun b => 1 * uses s b) all_bytes) = sum (map (uses s) all_bytes)) by (apply sum_ext; intros; lia).
    cbv beta in G. rewrite G3 in G. assert (G4 : sum (map (fun _ : byte => 1) all_bytes) = 256).
    { rewrite <- all_bytes_length. generalize all_bytes. clear. induction l as [|x l IH]; [reflexivity|]. cbn [map length]. rewrite sum_cons, IH. lia. }
    rewrite G4. lia.
  - intros l Hl. rewrite Eb. clear -Hl.
    assert (Hi : incl l all_bytes) by (intros b _; apply in_all_bytes). revert Hi. generalize all_bytes. induction Hl as [|b l Hb Hl IH]; intros bs Hi; [cbn; lia|].
    destruct (in_split b bs (Hi b (or_introl eq_refl))) as (u & v & ->). rewrite map_app. cbn [map]. rewrite sum_app, !sum_cons.
    specialize (IH (u ++ v)). rewrite map_app, sum_app in IH. enough (incl l (u ++ v)) by (specialize (IH H); lia).
    intros x Hx. specialize (Hi x (or_intror Hx)). apply in_app_iff in Hi as [Hi|[Hi|Hi]]; apply in_app_iff; auto. subst. contradiction.
Qed.

Lemma huff_round_w s counts n p best e r : sized s -> usable (st_token_set s) -> single_strings (st_token_set s) -> moderate L s -> huff_counts s = Ret counts -> full_table counts ->
  1 <= e < n -> e < 256 -> huff_round counts n p best e = Ret r -> w_huff_round bd M counts n p best e = Ret r.
Proof.
  intros Hz Hu Hs Hm Ec F He He' E. pose proof HM2 as (_ & H2 & _ & _). destruct (table_sum s counts Hz Hu Hs Hm Ec F) as (Ht & Hl).
  destruct (candidate_exists counts n p F e He He') as (tops & qs & Hc1 & Hc2 & Hc3).
  unfold huff_round in E. unfold w_huff_round. apply bind_ret in E as (nb & E1 & E). rewrite (usub_ref bd M _ _ _ E1). cbn [bind].
  apply bind_ret in E as (ts & E2 & E). rewrite (bytes_tokenset_w bd M counts _ _ _ _ ltac:(lia) E2). cbn [bind].
  apply bind_ret in E as (tot & E3 & E). rewrite (huff_total_w bd M counts ts tot); [exact E| |exact E3].
  rewrite checked_sub_le in E1 by lia. apply ret_inj in E1. subst nb. rewrite Hc1 in E2. apply ret_inj in E2. subst ts.
  rewrite huff_total_ok in E3 by (auto; intros q Hq; apply (codes_single _ _ _ _ Hc3 q Hq)). apply ret_inj in E3. subst tot.
  pose proof (bytes_tokenset_len _ _ _ _ _ Hc1) as Hlen. rewrite full_length in Hlen by exact F. cbn [huff_set sequences] in Hlen.
  pose proof (codes_bytes _ _ _ _ Hc3) as Hp. pose proof (Permutation_NoDup (Permutation_sym Hp) NoDup_all_bytes) as Nd.
  specialize (Hl _ Nd). rewrite map_app, sum_app, map_map in Hl. unfold huff_cost.
  assert (G : sum (map (fun q => cnt counts (seq_byte q) * length (seq_tokens q)) qs) <= 258 * sum (map (fun q => cnt counts (seq_byte q)) qs)).
  { clear -Hlen. induction qs as [|q qs IH]; [cbn; lia|]. cbn [map]. rewrite !sum_cons, Nat.mul_add_distr_l.
    assert (Hq : length (seq_tokens q) <= 258) by (apply Hlen; left; reflexivity).
    specialize (IH (fun q' Hq' => Hlen q' (or_intror Hq'))). apply Nat.add_le_mono; [|exact IH]. rewrite Nat.mul_comm. apply Nat.mul_le_mono_r. exact Hq. }
  lia.
Qed.

Lemma huff_bytes_w s n r : sized s -> usable (st_token_set s) -> single_strings (st_token_set s) -> moderate L s -> huff_bytes s n = Ret r -> w_huff_bytes bd M s n = Ret r.
Proof.
  intros Hz Hu Hs Hm E. pose proof HM2 as (_ & _ & H3 & _). unfold huff_bytes in E. unfold w_huff_bytes. apply bind_ret in E as (counts & E1 & E).
  rewrite (huff_counts_w bd M s counts); [|intros c Hc; pose proof (count_in_bound L s c Hm (or_introl Hc)); lia|intros c Hc; pose proof (count_in_bound L s c Hm (or_intror Hc)); lia|exact E1].
  cbn [bind]. apply bind_ret in E as (n1 & E2 & E). rewrite (usub_ref bd M _ _ _ E2). cbn [bind]. cbv zeta in *.
  apply bind_ret in E as (best & E3 & E).
  pose proof (huff_counts_ok s Hs) as (Ec & F). rewrite E1 in Ec. apply ret_inj in Ec. rewrite <- Ec in F.
  rewrite (mfold_same _ (w_huff_round bd M counts n (ts_processing (st_token_set s))) _ _ _) with (2 := E3); [exact E|].
  intros b e b' He. apply in_seq in He. unfold checked_sub in E2. destruct (Nat.leb_spec 1 n); [|discriminate]. apply ret_inj in E2.
  apply (huff_round_w s); auto; lia.
Qed.

Lemma optimizer_w t p sp s n r : sized s -> visited t p sp (st_token_set s) -> moderate L s ->
  optimizer_for t s n = Ret r -> w_optimizer_for bd M t s n = Ret r.
Proof.
  intros Hz V Hm. destruct t; cbn [optimizer_for w_optimizer_for].
  1-3: apply simple_bytes_w; auto; apply (vi_usable _ _ _ _ V).
  - auto.
  - apply huff_bytes_w; auto; [apply (vi_usable _ _ _ _ V)|apply (visited_single _ _ _ _ V)].
Qed.

(** ** Pairs *)
Lemma bpe_loop_w s : forall pairs nt r, bpe_loop s pairs nt = Ret r -> w_bpe_loop bd M s pairs nt = Ret r.
Proof.
  induction pairs as [|i pairs IH]; intros nt r; cbn [bpe_loop w_bpe_loop]; [auto|]. cbv zeta. intros E.
  apply bind_ret in E as (t1 & E1 & E). rewrite E1. cbn [bind]. apply bind_ret in E as (t2 & E2 & E). rewrite E2. cbn [bind].
  destruct t1 as [s1|]; [|discriminate]. destruct t2 as [s2|]; [|discriminate].
  apply bind_ret in E as (v & E3 & E). unfold is_valid_token in E3. unfold w_is_valid_token. apply bind_ret in E3 as (m & E4 & E3).
  rewrite (usub_ref bd M _ _ _ E4). cbn [bind]. rewrite E3. cbn [bind]. destruct v; [exact E|]. apply IH; exact E.
Qed.

Lemma bpe_loop_count s : forall pairs nt x c, bpe_loop s pairs nt = Ret (x, c) -> c = 0 \/ In c (pair_counts s).
Proof.
  induction pairs as [|i pairs IH]; intros nt x c; cbn [bpe_loop].
  - intros E. apply ret_inj in E. injection E as _ <-. auto.
  - cbv zeta. intros E. apply bind_ret in E as (t1 & _ & E). apply bind_ret in E as (t2 & _ & E).
    destruct t1 as [s1|]; [|discriminate]. destruct t2 as [s2|]; [|discriminate]. apply bind_ret in E as (v & _ & E).
    destruct v; [|eapply IH; exact E]. apply bind_ret in E as (c' & E1 & E). apply ret_inj in E. injection E as _ <-. right. apply idx_some, nth_error_In in E1. exact E1.
Qed.

Lemma bpe_w s r : moderate L s -> add_token_bpe s = Ret r ->
  w_add_token_bpe bd M s = Ret (match r with None => None | Some (ts, c) => Some (ts, Z.of_nat c) end).
Proof.
  intros Hm E. pose proof HM2 as (_ & _ & H3 & _). unfold add_token_bpe in E. cbv zeta in E. unfold w_add_token_bpe.
  rewrite (sort_by_key_eq _ (fun i => (- Z.of_nat (nth i (pair_counts s) 0%nat))%Z) (fun x y => nth y (pair_counts s) 0 <=? nth x (pair_counts s) 0)).
  - cbn [bind]. apply bind_ret in E as ((x, c) & E1 & E). rewrite (bpe_loop_w s _ _ _ E1). cbn [bind].
    destruct (bstr_eqb x []); [apply ret_inj in E; subst r; reflexivity|].
    apply bind_ret in E as ((ts, i) & E2 & E). rewrite E2. cbn [bind]. apply ret_inj in E. subst r.
    rewrite as_i64_small; [reflexivity|]. destruct (bpe_loop_count _ _ _ _ _ E1) as [->|Hc]; [lia|]. pose proof (mo_pairs _ _ Hm c Hc). lia.
  - intros i Hi. apply filter_In in Hi as (Hi & _). apply in_seq in Hi. unfold idx.
    destruct (nth_error (pair_counts s) i) as [c|] eqn:Ei; [|apply nth_error_None in Ei; lia].
    rewrite (nth_error_nth _ _ _ Ei). cbn [unwrap bind]. apply neg_count. pose proof (mo_pairs _ _ Hm c (nth_error_In _ _ Ei)). lia.
  - intros x y. set (a := nth x (pair_counts s) 0). set (b := nth y (pair_counts s) 0).
    destruct (Nat.leb_spec b a), (Z.leb_spec (- Z.of_nat a) (- Z.of_nat b)); try reflexivity; lia.
Qed.

(** ** Bytes *)
Lemma add_byte_w t p sp s r : (t = BytesHuff -> sp = true) -> sized s -> visited t p sp (st_token_set s) -> (is_bits t -> base_size (st_token_set s) < hi t) ->
  moderate L s -> ntokens (st_token_set s) + 1 < M ->
  add_byte (optimizer_for t) s = Ret r -> w_add_byte bd M (w_optimizer_for bd M t) s = Ret r.
Proof.
  intros Hsp Hz V Hb Hm Hn E. pose proof HM2 as (H1 & _ & _ & _). pose proof (vi_usable _ _ _ _ V) as Hu.
  assert (G : forall ts, visited t p sp ts -> spent s (cost ts) <= 258 * (259 * L)).
  { intros ts Vt. apply spent_bound; [exact Hm|]. intros b. apply (visited_cost t p sp); exact Vt. }
  unfold add_byte in E. unfold w_add_byte. rewrite (count_tokens_ok _ s Hu Hz) in E. cbn [bind] in E.
  pose proof (G _ V) as G1.
  rewrite (count_tokens_w bd M (st_token_set s) s (spent s (cost (st_token_set s)))); [|lia|apply count_tokens_ok; assumption]. cbn [bind].
  apply bind_ret in E as (m & Em & E). rewrite (usub_ref bd M _ _ _ Em). cbn [bind].
  rewrite checked_sub_le in Em by apply n_long_le. apply ret_inj in Em. fold (base_size (st_token_set s)) in Em. subst m.
  rewrite uadd_small by (unfold base_size; lia). cbn [bind].
  apply bind_ret in E as (new & En & E). rewrite (optimizer_w t p sp s _ new Hz V Hm En). cbn [bind].
  destruct (ntokens new =? ntokens (st_token_set s)); [exact E|].
  pose proof (base_range _ _ _ _ V) as R.
  destruct (bytes_optimizer_visited t p sp s (base_size (st_token_set s) + 1) Hsp Hz V) as (ts' & E' & V' & _); [lia|intros Hb'; specialize (Hb Hb'); lia|].
  rewrite En in E'. apply ret_inj in E'. subst ts'. pose proof (G _ V') as G2.
  rewrite (count_tokens_ok _ s (vi_usable _ _ _ _ V') Hz) in E. cbn [bind] in E.
  rewrite (count_tokens_w bd M new s (spent s (cost new))); [|lia|apply count_tokens_ok; [apply (vi_usable _ _ _ _ V')|exact Hz]]. cbn [bind].
  rewrite !as_i64_small by lia. unfold isub. rewrite i64_small by lia. cbn [bind]. exact E.
Qed.
End Machine.
