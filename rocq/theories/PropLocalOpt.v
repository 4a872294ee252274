(** * Property C114: a result cannot be improved by the exchanges of the search. *)
From Coq Require Import ZArith.
From Verif Require Import Base BaseLemmas TokenSetModel TokenizerModel TokSpec SortLemmas TokenizerProof1 TokenizerProof2
  TokenizerTheory TokenSetProof TokenSetProof2 PropTokenizer PropTokenSet StatsAlgebra BatchModel PropBatch
  PropJson Shaped CacheModel PropCache OptBytesModel OptBytesProof OptBytesProof2
  OptBytesProof3 OptBytesProof4 PropOptBytes OptimizeModel OptimizeProof1 OptimizeProof2 OptimizeProof3 OptimizeProof4
  OptimizeProof5 OptimizeProof6 OptimizeProof7 OptimizeProof8 PropOptimize PropDeterminism PropFixpoint PropBpe PropCanonical PropHuff PropWaste PropGrowth.

(** ** Specification *)

(** Extension and single-byte tokens of a set, and the least number a type needs. *)
Definition short_tokens (ts : tokenset) : nat := ntokens ts - n_long_tokens ts.
Definition fewest_short (t : token_type) : nat :=
  match t with Bits1 => 2 | Bits2 => 4 | Bits4 => 16 | Bytes => 256 | BytesHuff => 3 end.

(** No token set [ts] of the kind [P] needs fewer than [total] tokens for the data. *)
Definition none_below (samples : list bstr) (total : nat) (P : tokenset -> Prop) : Prop :=
  forall ts N, P ts -> min_total ts samples N -> total <= N.

(** What [grows] (C113) makes of [ts], whose statistics are [a]. *)
Definition grown (t : token_type) (a : stats) (ts ts' : tokenset) : Prop :=
  exists more old new best, optimizer_for t a (S (short_tokens ts)) = Ret more /\
    bytes_take a (st_token_set a) old /\ bytes_take a more new /\ best_pair a best /\ grows a more old new best (Some ts').

(** The three exchanges. *)
Definition bytes_chosen_afresh (t : token_type) (n : nat) (s : stats) (ts' : tokenset) : Prop :=
  optimizer_for t s (n - n_long_tokens (st_token_set s)) = Ret ts'.
Definition byte_for_pair (samples : list bstr) (init : option nat) (t : token_type) (s : stats) (ts' : tokenset) : Prop :=
  let ts := st_token_set s in fewest_short t < short_tokens ts /\
  exists fewer a x k i, optimizer_for t s (short_tokens ts - 1) = Ret fewer /\ fresh_answer samples init (WithPairs fewer) a /\
    best_pair a (Some (x, k)) /\ add_token (st_token_set a) x = Ret (ts', i).
Definition token_replaced (samples : list bstr) (init : option nat) (t : token_type) (s : stats) (ts' : tokenset) : Prop :=
  exists i x ts0 a, nth_error (tokens (st_token_set s)) i = Some (Str x) /\ 1 < length x /\ remove_token (st_token_set s) i = Ret ts0 /\
    fresh_answer samples init (WithPairs ts0) a /\ grown t a ts0 ts'.

(** ** Uniqueness of what the exchanges lead to *)
Lemma code_length_unique ts b l l' : usable ts -> code_length ts b l -> code_length ts b l' -> l = l'.
Proof.
  intros Hu H H'. assert (G : forall k, code_length ts b k -> k = cost ts b).
  { intros k K. symmetry. apply (cost_eq ts b k Hu). unfold all_costs. apply in_app_iff. destruct K as [K|K]; [left; apply in_tok_costs; exact K|right; apply in_seq_costs; exact K]. }
  rewrite (G _ H), (G _ H'). reflexivity.
Qed.

Lemma bytes_take_unique s ts w w' : sized s -> usable (st_token_set s) -> usable ts -> bytes_take s ts w -> bytes_take s ts w' -> w = w'.
Proof.
  intros Hz Hs Hu (u & l & U & L & ->) (u' & l' & U' & L' & ->). apply sum_ext. intros b _.
  rewrite (code_length_unique ts b _ _ Hu (L b) (L' b)). f_equal.
  pose proof (proj2 (used_uses _ _ _) (U b)). pose proof (proj2 (used_uses _ _ _) (U' b)). eapply byte_uses_unique; eassumption.
Qed.

Lemma preferred_unique s i j x k i' j' x' k' : joins s i j x k -> joins s i' j' x' k' -> preferred i j k i' j' k' -> preferred i' j' k' i j k -> x = x' /\ k = k'.
Proof.
  intros (a & b & A1 & A2 & -> & A4 & A5) (a' & b' & B1 & B2 & -> & B4 & B5) P P'. unfold preferred in *.
  assert (k = k' /\ i = i' /\ j = j') as (-> & -> & ->) by lia. split; [congruence|reflexivity].
Qed.

Lemma best_pair_unique s o o' : best_pair s o -> best_pair s o' -> o = o'.
Proof.
  intros [H|i j x k J K P|i j x k J P] [H'|i' j' x' k' J' K' P'|i' j' x' k' J' P']; try reflexivity;
    try (exfalso; eapply H; eassumption); try (exfalso; eapply H'; eassumption).
  - destruct (preferred_unique s _ _ _ _ _ _ _ _ J J' (P _ _ _ _ J' K') (P' _ _ _ _ J K)) as (-> & ->). reflexivity.
  - exfalso. destruct (P' _ _ _ _ J) as (N & _). contradiction.
  - exfalso. destruct (P _ _ _ _ J') as (N & _). contradiction.
  - destruct (preferred_unique s _ _ _ _ _ _ _ _ J J' (proj2 (P' _ _ _ _ J)) (proj2 (P _ _ _ _ J'))) as (-> & ->). reflexivity.
Qed.

Lemma grows_unique s more old new best r r' : grows s more old new best r -> grows s more old new best r' -> r = r'.
Proof.
  intros H H'. inversion H as [b N1 L1 E1 E2|x k ts1 C1 (i1 & A1) E1 E2|C1 E1 E2]; subst;
    inversion H' as [b' N2 L2 F1 F2|x' k' ts2 C2 (i2 & A2) F1 F2|C2 F1 F2]; subst; try reflexivity; try lia; try discriminate.
  - specialize (L1 _ _ eq_refl). lia.
  - specialize (L2 _ _ eq_refl). lia.
  - rewrite A1 in A2. apply ret_inj in A2. injection A2 as -> _. reflexivity.
Qed.

(** ** What is needed of a set that is still usable *)
Section Facts.
Variables (samples : list bstr) (init : option nat) (t : token_type) (p : processing) (sp : bool).
Hypothesis Hsp : t = BytesHuff -> sp = true.
Local Notation out := (outcome_of samples init).
Local Notation bo := (optimizer_for t).

Lemma answer_min ts a N : visited t p sp ts -> answer samples init (NoPairs ts) = Ret a -> min_total ts samples N -> N = total_tokens a.
Proof.
  intros V E H. destruct (fresh_answered samples init t p sp (NoPairs ts) a V (proj2 (fresh_answer_iff _ _ _ _) E)) as (A & _). cbn [requested] in A.
  apply total_for_min in H. exact (total_unique _ _ _ _ H (an_total A)).
Qed.

Lemma pair_choice ts a : visited t p sp ts -> answer samples init (WithPairs ts) = Ret a ->
  exists best, best_pair a best /\ add_token_bpe a = Ret (match best with None => None | Some (x, k) => Some (add_token_unchecked (st_token_set a) x, k) end) /\
    forall x k, best = Some (x, k) -> visited t p sp (add_token_unchecked (st_token_set a) x).
Proof.
  intros V E. destruct (fresh_answered samples init t p sp (WithPairs ts) a V (proj2 (fresh_answer_iff _ _ _ _) E)) as (A & Hpt). cbn [requested] in A.
  destruct (Hpt ts eq_refl) as (pss & T & P). destruct (add_pair_ok samples t p sp ts a A (Hpt ts eq_refl)) as (rp & Ep & Hrp).
  assert (Vt : forall x k, rp = Some (add_token_unchecked (st_token_set a) x, k) -> visited t p sp (add_token_unchecked (st_token_set a) x)).
  { intros x k ->. destruct (Hrp _ _ eq_refl) as ((Vt & _) & _). exact Vt. }
  rewrite Ep. destruct (bpe_choice (st_token_set a) samples pss a T P (vi_usable _ _ _ _ (an_visited A))) as [(Eb & Hn)|[(i1 & j1 & x & k1 & Eb & J1 & K1 & Hp)|(i1 & j1 & x & k1 & Eb & J1 & Hp)]];
    rewrite Ep in Eb; apply ret_inj in Eb; subst rp.
  - exists None. split; [apply bp_none; exact Hn|]. split; [reflexivity|discriminate].
  - exists (Some (x, k1)). split; [eapply bp_keeps; eauto|]. split; [reflexivity|]. intros y k Ex. injection Ex as <- <-. eapply Vt; reflexivity.
  - exists (Some (x, 0)). split; [eapply bp_breaks; eauto|]. split; [reflexivity|]. intros y k Ex. injection Ex as <- <-. eapply Vt; reflexivity.
Qed.

(** The growth of a set, as the program computes it. *)
Lemma grown_is ts a ts' : visited t p sp ts -> (is_bits t -> base_size ts < hi t) -> answer samples init (WithPairs ts) = Ret a ->
  grown t a ts ts' -> out (opt_add_token bo ts) = Ret (Some ts') /\ visited t p sp ts'.
Proof.
  intros V Hb Ea (more & old & new & best & Em & T1 & T2 & Bp & G).
  destruct (growth samples init t p sp Hsp ts a V Hb Ea) as (more' & old' & new' & best' & r & Em' & T1' & T2' & Bp' & G' & Eo & _ & Vr).
  change (short_tokens ts) with (base_size ts) in Em. rewrite Em in Em'. apply ret_inj in Em'. subst more'.
  pose proof (best_pair_unique _ _ _ Bp Bp') as <-.
  destruct (fresh_answered samples init t p sp (WithPairs ts) a V (proj2 (fresh_answer_iff _ _ _ _) Ea)) as (A & _). cbn [requested] in A.
  pose proof (vi_usable _ _ _ _ (an_visited A)) as Ua.
  destruct (byte_choice samples t p sp Hsp ts a A Hb) as (more' & Em' & Vm & _). rewrite Em in Em'. apply ret_inj in Em'. subst more'.
  rewrite <- (bytes_take_unique a _ _ _ (an_sized A) Ua Ua T1 T1') in G'.
  rewrite <- (bytes_take_unique a _ _ _ (an_sized A) Ua (vi_usable _ _ _ _ Vm) T2 T2') in G'.
  pose proof (grows_unique _ _ _ _ _ _ _ G G') as <-. split; [exact Eo|]. apply Vr. reflexivity.
Qed.
End Facts.

Lemma result_size threads total samples init order clock n p t pre rounds m s :
  1 <= threads -> shuffles order -> supported t n -> good_start n p t pre -> round_bound samples n <= rounds ->
  optimizing threads total samples init order clock n p t pre rounds m -> returned m s -> ntokens (st_token_set s) <= n.
Proof.
  intros Ht Ho Hs Hp Hr M R.
  destruct (returned_outcome _ _ _ _ _ _ _ _ _ _ _ _ _ Ht Ho Hs Hp Hr M R) as (E1 & _).
  destruct (run_parts _ _ _ _ _ _ _ _ _ _ Ho Hs Hp Hr E1) as (sp & ts1 & ts2 & _ & F1 & _ & Es & Ea').
  destruct (visited_sort _ _ _ _ _ (proj1 F1) Es) as (V2 & N2 & _). pose proof (proj2 F1) as F2.
  pose proof (answer_set _ _ _ _ _ _ _ V2 Ea') as E3. rewrite (C21_sort_idempotent _ _ Es) in E3. apply ret_inj in E3. rewrite <- E3. lia.
Qed.

(** ** C114 *)
Theorem C114_local_optimum : forall threads total samples init order clock n p t pre rounds m s,
  1 <= threads -> shuffles order -> supported t n -> good_start n p t pre -> round_bound samples n <= rounds ->
  optimizing threads total samples init order clock n p t pre rounds m -> returned m s ->
  none_below samples (total_tokens s) (bytes_chosen_afresh t n s) /\
  (ntokens (st_token_set s) = n ->
     none_below samples (total_tokens s) (byte_for_pair samples init t s) /\
     none_below samples (total_tokens s) (token_replaced samples init t s)) /\
  (ntokens (st_token_set s) < n ->
     forall a ts', fresh_answer samples init (WithPairs (st_token_set s)) a -> ~ grown t a (st_token_set s) ts').
Proof.
  intros threads total samples init order clock n p t pre rounds m s Ht Ho Hs Hp Hr M R.
  destruct (returned_parts _ _ _ _ _ _ _ _ _ _ _ _ _ Ht Ho Hs Hp Hr M R) as (sp0 & V0 & _ & Ea & St).
  pose proof (result_size _ _ _ _ _ _ _ _ _ _ _ _ _ Ht Ho Hs Hp Hr M R) as Hin.
  destruct (good_start_flag n p t (st_token_set s)) as (sp & V & Hsp & _); [exists sp0; split; assumption|]. clear sp0 V0.
  set (ts := st_token_set s) in *. destruct (supported_bounds _ _ Hs) as (_ & Hhi).
  destruct (fresh_answered samples init t p sp (NoPairs ts) s V (proj2 (fresh_answer_iff _ _ _ _) Ea)) as (A & _). cbn [requested] in A.
  pose proof (base_ntokens ts) as Eb. pose proof (base_range _ _ _ _ V) as Rg.
  split; [|split].
  - intros ts' N C HN. unfold bytes_chosen_afresh in C. fold ts in C.
    destruct (bytes_optimizer_visited t p sp s (n - n_long_tokens ts) Hsp (an_sized A) (an_visited A)) as (ts1 & E1 & V1 & _); [lia|intros H; specialize (Hhi H); lia|].
    rewrite C in E1. apply ret_inj in E1. subst ts1.
    destruct St as (rc & rc' & H). unfold optimization_step in H. rewrite out_stats, Ea in H. cbn [bind] in H.
    rewrite out_done, checked_sub_le in H by lia. cbn [bind] in H. rewrite out_done, C in H. cbn [bind] in H.
    rewrite out_stats in H. destruct (answer samples init (NoPairs ts')) as [ns| |] eqn:Ens; cbn [bind] in H; try discriminate.
    destruct (Nat.ltb_spec (total_tokens ns) (total_tokens s)) as [Hl|Hl]; [discriminate|].
    rewrite (answer_min samples init t p sp ts' ns N V1 Ens HN). exact Hl.
  - intros En. split.
    + intros ts' N (Hf & fewer & a & x & k & i & Ef & Fa & Bp & Ad) HN. apply fresh_answer_iff in Fa. fold ts in Hf, Ef.
      change (short_tokens ts) with (base_size ts) in *. change (fewest_short t) with (lo t) in Hf.
      assert (Tr : outcome_of samples init (trade_byte (optimizer_for t) ts n s) = Ret None).
      { destruct St as (rc & rc' & H). unfold optimization_step in H. rewrite out_stats, Ea in H. cbn [bind] in H.
        rewrite out_done in H. destruct (checked_sub n (n_long_tokens ts)) as [k1| |]; cbn [bind] in H; try discriminate.
        rewrite out_done in H. destruct (optimizer_for t s k1) as [new| |]; cbn [bind] in H; try discriminate.
        rewrite out_stats in H. destruct (answer samples init (NoPairs new)) as [ns| |]; cbn [bind] in H; try discriminate.
        destruct (total_tokens ns <? total_tokens s); [discriminate|]. rewrite outcome_bind in H.
        unfold remove_add_token in H. rewrite (proj2 (Nat.ltb_ge _ _)) in H by lia. rewrite out_done, (proj2 (Nat.eqb_eq _ _) En) in H. cbn [assert_that bind] in H.
        rewrite out_stats, Ea in H. cbn [bind] in H. rewrite outcome_bind in H.
        destruct (outcome_of samples init (trade_byte (optimizer_for t) ts n s)) as [[z|]| |]; cbn [bind] in H; try discriminate; [|reflexivity].
        cbn [outcome_of pret bind] in H. rewrite out_done in H. destruct (ntokens (st_token_set z) <=? n); discriminate. }
      destruct (bytes_optimizer_visited t p sp s (base_size ts - 1) Hsp (an_sized A) (an_visited A)) as (ts1 & E1 & V1 & B1 & L1); [lia|intros _; lia|].
      rewrite Ef in E1. apply ret_inj in E1. subst ts1.
      assert (N1 : ntokens fewer = n - 1) by (rewrite (base_ntokens fewer), L1, B1, (an_long A); lia).
      destruct (pair_choice samples init t p sp fewer a V1 Fa) as (best & Bp' & Ebp & Vp). pose proof (best_pair_unique _ _ _ Bp Bp') as <-.
      specialize (Vp _ _ eq_refl). unfold add_token in Ad. apply bind_ret in Ad as (u & _ & Ad). apply ret_inj in Ad. injection Ad as <- _.
      unfold trade_byte in Tr. rewrite out_done, checked_sub_le in Tr by apply n_long_le. cbn [bind] in Tr. fold (base_size ts) in Tr.
      rewrite (visited_min _ _ _ _ V), (proj2 (Nat.ltb_lt _ _) Hf) in Tr. rewrite out_done, checked_sub_le in Tr by lia. cbn [bind] in Tr.
      rewrite out_done, Ef in Tr. cbn [bind] in Tr. rewrite out_done, checked_sub_le in Tr by lia. cbn [bind] in Tr.
      rewrite out_done, (proj2 (Nat.eqb_eq _ _) N1) in Tr. cbn [assert_that bind] in Tr. rewrite out_pairs, Fa in Tr. cbn [bind] in Tr.
      rewrite out_done, Ebp in Tr. cbn [bind] in Tr. rewrite out_stats in Tr.
      destruct (answer samples init (NoPairs (add_token_unchecked (st_token_set a) x))) as [ga| |] eqn:Eg; cbn [bind] in Tr; try discriminate.
      destruct (Nat.ltb_spec (total_tokens ga) (total_tokens s)) as [Hl|Hl]; [discriminate|].
      rewrite (answer_min samples init t p sp _ ga N Vp Eg HN). exact Hl.
    + intros ts' N (i & x & ts0 & a & Hi & Hl & Hrm & Fa & G) HN. apply fresh_answer_iff in Fa. fold ts in Hi, Hrm. pose proof (nth_error_In _ _ Hi) as Hx.
      destruct (stuck_fails _ _ _ _ _ _ _ x Ho St En Ea Hx Hl) as (i' & new & n1 & Fi & Fr & Fn & Fe & Fo).
      assert (Ei : i' = i).
      { apply C20_find_token in Fi as (Fi & _). destruct (vi_shaped _ _ _ _ V) as (ss & S).
        apply (proj1 (NoDup_nth_error _) (shaped_NoDup _ _ S)); [apply nth_error_Some; congruence|congruence]. }
      subst i'. rewrite Hrm in Fr. apply ret_inj in Fr. subst new.
      destruct (visited_remove _ _ _ _ _ V Hx Hl) as (i' & ts0' & F1 & F2 & V1 & N0 & L0).
      rewrite Fi in F1. injection F1 as <-. rewrite Hrm in F2. apply ret_inj in F2. subst ts0'.
      assert (Hb : is_bits t -> base_size ts0 < hi t) by (intros Hbits; specialize (Hhi Hbits); pose proof (base_ntokens ts0); lia).
      destruct (grown_is samples init t p sp Hsp ts0 a ts' V1 Hb Fa G) as (Eo & V').
      destruct Fo as [Fo|(newer & na & Fo & Fs & Fl)]; rewrite Eo in Fo; [discriminate|]. apply ret_inj in Fo. injection Fo as <-.
      rewrite (answer_min samples init t p sp _ na N V' Fs HN). exact Fl.
  - intros Hlt a ts' Fa G. apply fresh_answer_iff in Fa. pose proof (stuck_add _ _ _ _ _ _ St Hlt) as Hno. fold ts in Hno.
    assert (Hb : is_bits t -> base_size ts < hi t) by (intros Hbits; specialize (Hhi Hbits); lia).
    destruct (grown_is samples init t p sp Hsp ts a ts' V Hb Fa G) as (Eo & _). congruence.
Qed.

(** The exchanges are always possible, except that there may be nothing to add: every multi-byte token can be given up and
    every single byte that the type does not need, and whenever two neighbouring tokens could then be joined there is an
    exchange. *)
Theorem C114_exchanges_exist : forall threads total samples init order clock n p t pre rounds m s,
  1 <= threads -> shuffles order -> supported t n -> good_start n p t pre -> round_bound samples n <= rounds ->
  optimizing threads total samples init order clock n p t pre rounds m -> returned m s ->
  (exists ts', bytes_chosen_afresh t n s ts') /\
  (ntokens (st_token_set s) = n -> forall i x, nth_error (tokens (st_token_set s)) i = Some (Str x) -> 1 < length x ->
     exists ts0 a, remove_token (st_token_set s) i = Ret ts0 /\ fresh_answer samples init (WithPairs ts0) a /\
       ((exists j k y c, joins a j k y c) -> exists ts' N, grown t a ts0 ts' /\ token_replaced samples init t s ts' /\ min_total ts' samples N)) /\
  (ntokens (st_token_set s) = n -> fewest_short t < short_tokens (st_token_set s) ->
     exists fewer a, optimizer_for t s (short_tokens (st_token_set s) - 1) = Ret fewer /\ fresh_answer samples init (WithPairs fewer) a /\
       ((exists j k y c, joins a j k y c) -> exists ts' N, byte_for_pair samples init t s ts' /\ min_total ts' samples N)).
Proof.
  intros threads total samples init order clock n p t pre rounds m s Ht Ho Hs Hp Hr M R.
  destruct (returned_parts _ _ _ _ _ _ _ _ _ _ _ _ _ Ht Ho Hs Hp Hr M R) as (sp0 & V0 & _ & Ea & St).
  pose proof (result_size _ _ _ _ _ _ _ _ _ _ _ _ _ Ht Ho Hs Hp Hr M R) as Hin.
  destruct (good_start_flag n p t (st_token_set s)) as (sp & V & Hsp & _); [exists sp0; split; assumption|]. clear sp0 V0.
  set (ts := st_token_set s) in *. destruct (supported_bounds _ _ Hs) as (_ & Hhi).
  destruct (fresh_answered samples init t p sp (NoPairs ts) s V (proj2 (fresh_answer_iff _ _ _ _) Ea)) as (A & _). cbn [requested] in A.
  pose proof (base_ntokens ts) as Eb. pose proof (base_range _ _ _ _ V) as Rg.
  assert (Tot : forall ts', visited t p sp ts' -> exists N, min_total ts' samples N).
  { intros ts' V'. destruct (answer_total samples init (NoPairs ts')) as (a & E); [apply (visited_askable t p sp); exact V'|].
    destruct (fresh_answered samples init t p sp (NoPairs ts') a V' (proj2 (fresh_answer_iff _ _ _ _) E)) as (A' & _). cbn [requested] in A'.
    exists (total_tokens a). apply total_for_min, (an_total A'). }
  split; [|split].
  - destruct (bytes_optimizer_visited t p sp s (n - n_long_tokens ts) Hsp (an_sized A) (an_visited A)) as (ts1 & E1 & _); [lia|intros H; specialize (Hhi H); lia|].
    exists ts1. exact E1.
  - intros En i x Hi Hl. pose proof (nth_error_In _ _ Hi) as Hx.
    destruct (visited_remove _ _ _ _ _ V Hx Hl) as (i' & ts0 & F1 & F2 & V1 & N0 & L0).
    assert (Ei : i' = i).
    { apply C20_find_token in F1 as (F1 & _). destruct (vi_shaped _ _ _ _ V) as (ss & S).
      apply (proj1 (NoDup_nth_error _) (shaped_NoDup _ _ S)); [apply nth_error_Some; congruence|congruence]. }
    subst i'. destruct (answer_total samples init (WithPairs ts0)) as (a & E); [apply (visited_askable t p sp); exact V1|].
    exists ts0, a. split; [exact F2|]. split; [apply fresh_answer_iff; exact E|]. intros (j & k & y & c & J).
    assert (Hb : is_bits t -> base_size ts0 < hi t) by (intros Hbits; specialize (Hhi Hbits); pose proof (base_ntokens ts0); lia).
    destruct (growth samples init t p sp Hsp ts0 a V1 Hb E) as (more & old & new & best & r & Em & T1 & T2 & Bp & G & _ & _ & Vr).
    destruct r as [ts'|].
    + assert (Gr : grown t a ts0 ts') by (exists more, old, new, best; auto).
      destruct (Tot ts' (Vr ts' eq_refl)) as (N & HN). exists ts', N. split; [exact Gr|]. split; [|exact HN].
      exists i, x, ts0, a. split; [exact Hi|]. split; [exact Hl|]. split; [exact F2|]. split; [apply fresh_answer_iff; exact E|exact Gr].
    + exfalso. inversion G; subst. inversion Bp as [Hn| |]. eapply Hn. exact J.
  - intros En Hf. change (short_tokens ts) with (base_size ts) in *. change (fewest_short t) with (lo t) in Hf.
    destruct (bytes_optimizer_visited t p sp s (base_size ts - 1) Hsp (an_sized A) (an_visited A)) as (fewer & E1 & V1 & _); [lia|intros _; lia|].
    destruct (answer_total samples init (WithPairs fewer)) as (a & E); [apply (visited_askable t p sp); exact V1|].
    exists fewer, a. split; [exact E1|]. split; [apply fresh_answer_iff; exact E|]. intros (j & k & y & c & J).
    destruct (pair_choice samples init t p sp fewer a V1 E) as (best & Bp & _ & Vp).
    destruct best as [(x & kx)|]; [|exfalso; inversion Bp as [Hn| |]; eapply Hn; exact J].
    specialize (Vp _ _ eq_refl). destruct (add_string _ _ (vi_usable _ _ _ _ Vp)) as (i & Ad).
    destruct (Tot _ Vp) as (N & HN). exists (add_token_unchecked (st_token_set a) x), N. split; [|exact HN]. split; [exact Hf|].
    exists fewer, a, x, kx, i. split; [exact E1|]. split; [apply fresh_answer_iff; exact E|]. split; [exact Bp|exact Ad].
Qed.

(** A run with such an exchange: that of C104. *)
Theorem C114_hypotheses_met : exists m s ts' N,
  optimizing 4 3 [[x61; x62; x61; x62]] None (fun _ l => rev l) (fun _ => true) 257 Raw Bytes None (round_bound [[x61; x62; x61; x62]] 257) m /\ returned m s /\
  ntokens (st_token_set s) = 257 /\ token_replaced [[x61; x62; x61; x62]] None Bytes s ts' /\ min_total ts' [[x61; x62; x61; x62]] N.
Proof.
  destruct C104_hypotheses_met as (m & s & i & x & ts0 & ts1 & s1 & a & b & y & k & M & R & En & Hi & Hl & Hrm & Hso & Hto & J).
  assert (Hr : shuffles (fun _ l => rev l)) by (intros m' l; symmetry; apply Permutation_rev).
  assert (G : supported Bytes 257) by (split; [apply Nat.leb_le; reflexivity|exact I]).
  destruct (C114_exchanges_exist 4 3 _ _ _ _ 257 Raw Bytes None _ _ _ ltac:(lia) Hr G I (le_n _) M R) as (_ & H & _).
  destruct (H En i x Hi Hl) as (ts0' & a' & F1 & F2 & F3). rewrite Hrm in F1. apply ret_inj in F1. subst ts0'.
  assert (Ea' : a' = s1).
  { apply fresh_answer_iff in F2. unfold answer in F2. cbn [requested] in F2. rewrite Hso in F2. cbn [bind] in F2. rewrite Hto in F2. cbn [bind] in F2.
    apply ret_inj in F2. symmetry. exact F2. }
  subst a'. destruct F3 as (ts' & N & _ & T & HN); [eauto|]. exists m, s, ts', N. auto.
Qed.
