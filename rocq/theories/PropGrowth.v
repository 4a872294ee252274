(** * Property C113: how the search fills the room that is left. *)
From Coq Require Import ZArith.
From Verif Require Import Base BaseLemmas TokenSetModel TokenizerModel TokSpec SortLemmas TokenizerProof1 TokenizerProof2
  TokenizerTheory TokenSetProof TokenSetProof2 PropTokenizer PropTokenSet StatsAlgebra BatchModel PropBatch
  PropJson Shaped CacheModel PropCache OptBytesModel OptBytesProof OptBytesProof2
  OptBytesProof3 OptBytesProof4 PropOptBytes OptimizeModel OptimizeProof1 OptimizeProof2 OptimizeProof3 OptimizeProof4
  OptimizeProof5 OptimizeProof6 OptimizeProof7 OptimizeProof8 PropOptimize PropDeterminism PropFixpoint PropBpe PropCanonical PropHuff PropWaste.

(** ** Specification *)

(** [bytes_take s ts w]: encoding every byte as often as the statistics have seen it on its own takes [w] tokens of [ts]. *)
Definition bytes_take (s : stats) (ts : tokenset) (w : nat) : Prop :=
  exists (u len : byte -> nat), (forall b, used s b (u b)) /\ (forall b, code_length ts b (len b)) /\
    w = sum (map (fun b => len b * u b) all_bytes).

(** [best_pair s o]: the pair of neighbouring tokens to join, and what that promises: the number of times they stand next to
    each other, or nothing if every pair breaks the paragraph rule. *)
Inductive best_pair (s : stats) : option (bstr * nat) -> Prop :=
| bp_none : (forall i j x k, ~ joins s i j x k) -> best_pair s None
| bp_keeps i j x k : joins s i j x k -> keeps_rule x ->
    (forall i' j' y k', joins s i' j' y k' -> keeps_rule y -> preferred i j k i' j' k') -> best_pair s (Some (x, k))
| bp_breaks i j x k : joins s i j x k ->
    (forall i' j' y k', joins s i' j' y k' -> ~ keeps_rule y /\ preferred i' j' k' i j k) -> best_pair s (Some (x, 0)).

(** [grows s more old new best r]: of the set [more] with one single-byte token more and the pair [best], the more promising. *)
Inductive grows (s : stats) (more : tokenset) (old new : nat) : option (bstr * nat) -> option tokenset -> Prop :=
| gr_byte best : ntokens more = S (ntokens (st_token_set s)) -> (forall x k, best = Some (x, k) -> new + k < old) ->
    grows s more old new best (Some more)
| gr_pair x k ts' : (ntokens more = ntokens (st_token_set s) \/ old <= new + k) ->
    (exists i, add_token (st_token_set s) x = Ret (ts', i)) ->
    grows s more old new (Some (x, k)) (Some ts')
| gr_full : ntokens more = ntokens (st_token_set s) -> grows s more old new None None.

(** ** Proof *)
Lemma cost_code ts b : usable ts -> code_length ts b (cost ts b).
Proof.
  intros Hu. destruct (costs_all ts b Hu) as (c & H). rewrite (cost_eq _ _ _ Hu H). unfold all_costs in H. apply in_app_iff in H as [H|H].
  - apply in_tok_costs in H. left. exact H.
  - apply in_seq_costs in H. right. exact H.
Qed.

Lemma spent_bytes_take s ts : sized s -> usable (st_token_set s) -> usable ts -> bytes_take s ts (spent s (cost ts)).
Proof.
  intros Hz Hs Hu. exists (uses s), (cost ts). split; [intros b; apply used_uses, uses_in; assumption|].
  split; [intros b; apply cost_code, Hu|apply spent_grouped; assumption].
Qed.

Lemma add_string ts x : usable (add_token_unchecked ts x) -> exists i, add_token ts x = Ret (add_token_unchecked ts x, i).
Proof.
  intros (_ & Hn & _). unfold add_token. destruct (bstr_eqb x []) eqn:E; [|cbn; eauto].
  apply bstr_eqb_eq in E. subst x. elim Hn. apply in_strings_add. right. reflexivity.
Qed.

Section Growth.
Variables (samples : list bstr) (init : option nat) (t : token_type) (p : processing) (sp : bool).
Hypothesis Hsp : t = BytesHuff -> sp = true.
Local Notation out := (outcome_of samples init).
Local Notation bo := (optimizer_for t).

Lemma byte_choice ts s : answered samples t p sp ts s -> (is_bits t -> base_size ts < hi t) ->
  exists more, bo s (S (base_size ts)) = Ret more /\ visited t p sp more /\
    bytes_take s (st_token_set s) (spent s (cost (st_token_set s))) /\ bytes_take s more (spent s (cost more)) /\
    ((ntokens more = ntokens (st_token_set s) /\ add_byte bo s = Ret None) \/
     (ntokens more = S (ntokens (st_token_set s)) /\
      add_byte bo s = Ret (Some (more, (Z.of_nat (spent s (cost (st_token_set s))) - Z.of_nat (spent s (cost more)))%Z)))).
Proof.
  intros A Hb. pose proof (an_visited A) as V. pose proof (vi_usable _ _ _ _ V) as Hu. pose proof (an_sized A) as Hz.
  unfold add_byte. rewrite (count_tokens_ok _ s Hu Hz). cbn [bind].
  rewrite checked_sub_le by apply n_long_le. cbn [bind]. fold (base_size (st_token_set s)).
  assert (Ebase : base_size (st_token_set s) = base_size ts) by (unfold base_size; rewrite (an_ntokens A), (an_long A); reflexivity).
  pose proof (base_range _ _ _ _ V) as R. rewrite Ebase in R.
  destruct (bytes_optimizer_visited t p sp s (base_size (st_token_set s) + 1) Hsp Hz V) as (ts' & E & V' & B' & L').
  - rewrite Ebase. lia.
  - intros H. specialize (Hb H). rewrite Ebase. lia.
  - exists ts'. replace (S (base_size ts)) with (base_size (st_token_set s) + 1) by lia. split; [exact E|]. split; [exact V'|].
    split; [apply spent_bytes_take; assumption|]. split; [apply spent_bytes_take; auto; apply (vi_usable _ _ _ _ V')|].
    rewrite E. cbn [bind]. destruct (Nat.eqb_spec (ntokens ts') (ntokens (st_token_set s))) as [En|En]; [left; auto|right].
    rewrite (count_tokens_ok _ s (vi_usable _ _ _ _ V') Hz). cbn [bind]. split; [|reflexivity].
    rewrite (base_ntokens ts'), (base_ntokens (st_token_set s)), L', B' in *. lia.
Qed.

Lemma growth ts s : visited t p sp ts -> (is_bits t -> base_size ts < hi t) -> answer samples init (WithPairs ts) = Ret s ->
  exists more old new best r, bo s (S (base_size ts)) = Ret more /\
    bytes_take s (st_token_set s) old /\ bytes_take s more new /\ best_pair s best /\
    grows s more old new best r /\ out (opt_add_token bo ts) = Ret r /\
    (t <> BytesHuff -> forall ts' x k N', r = Some ts' -> best = Some (x, k) -> total_for ts' samples N' ->
       N' + (Nat.max k (if ntokens more =? ntokens ts then 0 else old - new) + 1) / 2 <= total_tokens s) /\
    (forall ts', r = Some ts' -> visited t p sp ts').
Proof.
  intros V Hb Ea. pose proof (proj2 (fresh_answer_iff _ _ _ _) Ea) as F.
  destruct (fresh_answered samples init t p sp (WithPairs ts) s V F) as (A & Hpt). cbn [requested] in A.
  destruct (Hpt ts eq_refl) as (pss & T & P). pose proof (an_visited A) as Va.
  destruct (byte_choice ts s A Hb) as (more & Em & Vm & T1 & T2 & Hby).
  destruct (add_pair_ok samples t p sp ts s A (Hpt ts eq_refl)) as (rp & Ep & Hrp).
  set (old := spent s (cost (st_token_set s))) in *. set (new := spent s (cost more)) in *.
  assert (Eo : forall rb, add_byte bo s = Ret rb -> out (opt_add_token bo ts) = Ret (match rb, rp with
        | None, None => None
        | Some (t, _), None => Some t
        | None, Some (t, _) => Some t
        | Some (tb, cb), Some (tp, cp) => if (Z.of_nat cp <? cb)%Z then Some tb else Some tp
        end)).
  { intros rb Eb. unfold opt_add_token. rewrite out_pairs, Ea. cbn [bind]. rewrite out_done, Eb. cbn [bind]. rewrite out_done, Ep. reflexivity. }
  assert (Bp : exists best, best_pair s best /\ rp = match best with None => None | Some (x, k) => Some (add_token_unchecked (st_token_set s) x, k) end /\
    forall x k, best = Some (x, k) -> exists i j k', joins s i j x k').
  { destruct (bpe_choice (st_token_set s) samples pss s T P (vi_usable _ _ _ _ Va)) as [(E & Hn)|[(i1 & j1 & x & k1 & E & J1 & K1 & Hp)|(i1 & j1 & x & k1 & E & J1 & Hp)]];
      rewrite Ep in E; apply ret_inj in E; subst rp.
    - exists None. split; [apply bp_none; exact Hn|]. split; [reflexivity|discriminate].
    - exists (Some (x, k1)). split; [eapply bp_keeps; eauto|]. split; [reflexivity|]. intros x' k' Ex. injection Ex as <- <-. eauto.
    - exists (Some (x, 0)). split; [eapply bp_breaks; eauto|]. split; [reflexivity|]. intros x' k' Ex. injection Ex as <- <-. eauto. }
  destruct Bp as (best & Bp & Er & Jb).
  assert (Pair : forall x k N', best = Some (x, k) -> total_for (add_token_unchecked (st_token_set s) x) samples N' -> N' + (k + 1) / 2 <= total_tokens s).
  { intros x k N' -> HN'. subst rp.
    destruct F as (tsx & s0 & Es & Et & Eas). cbn [requested] in Es. cbn in Eas. subst s0.
    destruct (visited_sort _ _ _ _ _ V Es) as (Vx & _ & _).
    destruct (proj2 (C01_tokenizer_exists_iff_usable tsx) (vi_usable _ _ _ _ Vx)) as (tk & Htk).
    assert (Eset : st_token_set s = tsx) by (destruct (sync_tallied tsx samples init s Et (visited_range _ _ _ _ Vx)) as (pss' & T' & _); apply (ta_set _ _ _ _ T')).
    destruct (Hrp _ _ eq_refl) as ((Vt & _) & _). rewrite Eset in *. set (tn := add_token_unchecked tsx x) in *.
    destruct (proj2 (C01_tokenizer_exists_iff_usable tn) (vi_usable _ _ _ _ Vt)) as (tk' & Htk').
    pose proof (sync_eq tn tk' Htk' (visited_range _ _ _ _ Vt) samples init) as Es'.
    match type of Es' with _ = Ret ?s' => set (s1 := s') in * end.
    destruct (sync_tallied tn samples init s1 Es' (visited_range _ _ _ _ Vt)) as (pss1 & T1' & _).
    rewrite (total_unique _ _ _ _ HN' (tallied_total _ _ _ _ T1')).
    exact (proj2 (C65_bpe_step_saves tsx tk samples init s tn k s1 Htk (visited_range _ _ _ _ Vx) (visited_nonempty _ _ _ _ Vx) Et Ep Es')). }
  assert (Half : forall a b, a <= b -> (a + 1) / 2 <= (b + 1) / 2) by (intros a b H; apply Nat.div_le_mono; lia).
  exists more, old, new, best.
  destruct Hby as [(Nm & Eb)|(Nm & Eb)]; specialize (Eo _ Eb).
  - assert (Nm' : ntokens more = ntokens ts) by (rewrite Nm; apply (an_ntokens A)). rewrite (proj2 (Nat.eqb_eq _ _) Nm').
    destruct best as [(x & k)|]; subst rp.
    + exists (Some (add_token_unchecked (st_token_set s) x)). do 4 (split; [assumption|]). split; [apply gr_pair; [auto|apply add_string; destruct (Hrp _ _ eq_refl) as ((Vt & _) & _); apply (vi_usable _ _ _ _ Vt)]|].
      split; [exact Eo|]. split.
      * intros _ ts' x' k' N' E1 E2 HN'. injection E1 as <-. injection E2 as <- <-. rewrite Nat.max_0_r. eapply Pair; eauto.
      * intros ts' E1. injection E1 as <-. destruct (Hrp _ _ eq_refl) as ((Vt & _) & _). exact Vt.
    + exists None. do 4 (split; [assumption|]). split; [apply gr_full; exact Nm|]. split; [exact Eo|]. split; [discriminate|discriminate].
  - assert (Nm' : ntokens more <> ntokens ts) by (rewrite Nm, (an_ntokens A); lia). rewrite (proj2 (Nat.eqb_neq _ _) Nm').
    destruct best as [(x & k)|]; subst rp.
    + destruct (Z.ltb_spec (Z.of_nat k) (Z.of_nat old - Z.of_nat new)) as [Hlt|Hge].
      * exists (Some more). do 4 (split; [assumption|]). split; [apply gr_byte; [exact Nm|]; intros x' k' E; injection E as <- <-; lia|].
        split; [exact Eo|]. split.
        -- intros Hh ts' x' k' N' E1 E2 HN'. injection E1 as <-. injection E2 as <- <-. pose proof (byte_gain samples t p sp Hh ts s more _ N' A Hb Eb HN') as X.
           rewrite Nat.max_r by lia. assert ((old - new + 1) / 2 <= old - new) by (apply Nat.lt_succ_r, Nat.div_lt_upper_bound; lia). lia.
        -- intros ts' E1. injection E1 as <-. exact Vm.
      * exists (Some (add_token_unchecked (st_token_set s) x)). do 4 (split; [assumption|]). split; [apply gr_pair; [right; lia|apply add_string; destruct (Hrp _ _ eq_refl) as ((Vt & _) & _); apply (vi_usable _ _ _ _ Vt)]|].
        split; [exact Eo|]. split.
        -- intros _ ts' x' k' N' E1 E2 HN'. injection E1 as <-. injection E2 as <- <-. rewrite Nat.max_l by lia. eapply Pair; eauto.
        -- intros ts' E1. injection E1 as <-. destruct (Hrp _ _ eq_refl) as ((Vt & _) & _). exact Vt.
    + exists (Some more). do 4 (split; [assumption|]). split; [apply gr_byte; [exact Nm|discriminate]|]. split; [exact Eo|]. split; [discriminate|].
      intros ts' E1. injection E1 as <-. exact Vm.
Qed.
End Growth.

Lemma answer_without samples init ts a : answer samples init (WithPairs ts) = Ret a -> answer samples init (NoPairs ts) = Ret (without_pairs a).
Proof.
  unfold answer. cbn [requested]. destruct (ts_sort ts) as [ts'| |]; cbn [bind]; try discriminate.
  destruct (tokenize_file_sync ts' samples init) as [s| |]; cbn [bind]; try discriminate. congruence.
Qed.

Lemma answer_set samples init t p sp ts a : visited t p sp ts -> answer samples init (NoPairs ts) = Ret a -> ts_sort ts = Ret (st_token_set a).
Proof.
  intros V E. unfold answer in E. cbn [requested] in E. destruct (ts_sort ts) as [ts'| |] eqn:Es; cbn [bind] in E; try discriminate.
  apply bind_ret in E as (s & Et & E). apply ret_inj in E. subst a. destruct (visited_sort _ _ _ _ _ V Es) as (V' & _).
  destruct (sync_tallied ts' samples init s Et (visited_range _ _ _ _ V')) as (pss & T & _). cbn. rewrite (ta_set _ _ _ _ T). reflexivity.
Qed.

(** ** C113 *)

(** One round of the search on a set with room for another token.  If filling all the room with single bytes lowers the number
    of tokens, that is done.  Otherwise the set grows by one token: by the more promising of a single byte (the most frequent
    ones are chosen afresh) and the most frequent pair; the round saves at least half of what the better one promises. *)
Theorem C113_more_promising_token : forall samples init order t p ts n rc a,
  supported t n -> good_start n p t (Some ts) -> ntokens ts < n -> fresh_answer samples init (WithPairs ts) a ->
  exists filled fa more old new best r r',
    optimizer_for t (without_pairs a) (n - n_long_tokens ts) = Ret filled /\ fresh_answer samples init (NoPairs filled) fa /\
    optimizer_for t a (S (ntokens ts - n_long_tokens ts)) = Ret more /\
    bytes_take a (st_token_set a) old /\ bytes_take a more new /\ best_pair a best /\ grows a more old new best r /\
    outcome_of samples init (optimization_step (optimizer_for t) order ts n rc) = Ret (r', rc) /\
    (total_tokens fa < total_tokens a -> r' = Some (st_token_set fa)) /\
    (total_tokens a <= total_tokens fa -> match r with Some ts' => exists sorted, ts_sort ts' = Ret sorted /\ r' = Some sorted | None => r' = None end) /\
    (total_tokens a <= total_tokens fa -> t <> BytesHuff -> forall ts' x k N', r' = Some ts' -> best = Some (x, k) -> min_total ts' samples N' ->
       N' + (Nat.max k (if ntokens more =? ntokens ts then 0 else old - new) + 1) / 2 <= total_tokens a).
Proof.
  intros samples init order t p ts n rc a Hs Gs Hlt F. destruct (good_start_flag _ _ _ _ Gs) as (sp & V & Hsp & _).
  assert (Hn : is_bits t -> n <= hi t) by (apply (supported_bounds t n Hs)).
  assert (Hb : is_bits t -> base_size ts < hi t) by (intros H; specialize (Hn H); unfold base_size; lia).
  pose proof (proj1 (fresh_answer_iff _ _ _ _) F) as Ea.
  destruct (growth samples init t p sp Hsp ts a V Hb Ea) as (more & old & new & best & r & Em & B1 & B2 & Bp & G & Eo & Gain & Vr).
  pose proof (answer_without _ _ _ _ Ea) as En.
  destruct (fresh_answered samples init t p sp (NoPairs ts) (without_pairs a) V (proj2 (fresh_answer_iff _ _ _ _) En)) as (A & _). cbn [requested] in A.
  pose proof (base_ntokens ts) as Eb. pose proof (base_range _ _ _ _ V) as R.
  destruct (bytes_optimizer_visited t p sp (without_pairs a) (n - n_long_tokens ts) Hsp (an_sized A) (an_visited A)) as (filled & E1 & V1 & _); [lia|intros H; specialize (Hn H); lia|].
  destruct (answer_total samples init (NoPairs filled)) as (fa & Ef); [apply (visited_askable t p sp); exact V1|].
  assert (St : exists r', outcome_of samples init (optimization_step (optimizer_for t) order ts n rc) = Ret (r', rc) /\
    (total_tokens fa < total_tokens a -> r' = Some (st_token_set fa)) /\
    (total_tokens a <= total_tokens fa -> match r with Some ts' => exists sorted, ts_sort ts' = Ret sorted /\ r' = Some sorted | None => r' = None end)).
  { unfold optimization_step. rewrite out_stats, En. cbn [bind]. rewrite out_done, checked_sub_le by lia. cbn [bind]. rewrite out_done, E1. cbn [bind].
    rewrite out_stats, Ef. cbn [bind]. change (total_tokens (without_pairs a)) with (total_tokens a).
    destruct (Nat.ltb_spec (total_tokens fa) (total_tokens a)) as [Hl|Hge].
    - exists (Some (st_token_set fa)). split; [reflexivity|]. split; [reflexivity|lia].
    - unfold remove_add_token. rewrite (proj2 (Nat.ltb_lt _ _) Hlt). rewrite outcome_bind, outcome_bind, Eo. cbn [bind].
      destruct r as [ts'|].
      + specialize (Vr ts' eq_refl). destruct (answer_total samples init (NoPairs ts')) as (ga & Eg); [apply (visited_askable t p sp); exact Vr|].
        rewrite out_stats, Eg. cbn [bind]. pose proof (answer_set _ _ _ _ _ _ _ Vr Eg) as Es. cbn [outcome_of bind pret].
        assert (Ng : ntokens (st_token_set ga) <= n).
        { destruct (visited_sort _ _ _ _ _ Vr Es) as (_ & -> & _).
          destruct (fresh_answered samples init t p sp (WithPairs ts) a V F) as (A0 & _). cbn [requested] in A0. pose proof (an_ntokens A0) as N0.
          inversion G as [b Nm _ Eb0 Er0|x k ts2 _ (i & Ei) Eb0 Er0|]; subst; [lia|].
          unfold add_token in Ei. apply bind_ret in Ei as (u & _ & Ei). apply ret_inj in Ei. injection Ei as <- _.
          unfold ntokens in *. cbn [add_token_unchecked tokens]. rewrite app_length. cbn [length]. lia. }
        rewrite out_done, (proj2 (Nat.leb_le _ _) Ng). cbn [assert_that bind]. exists (Some (st_token_set ga)). split; [reflexivity|].
        split; [lia|]. intros _. eauto.
      + exists None. split; [reflexivity|]. split; [lia|reflexivity]. }
  destruct St as (r' & Es & S1 & S2).
  exists filled, fa, more, old, new, best, r, r'. split; [exact E1|]. split; [apply fresh_answer_iff; exact Ef|]. split; [exact Em|].
  do 4 (split; [assumption|]). split; [exact Es|]. split; [exact S1|]. split; [exact S2|].
  intros Hge Hh ts' x k N' Er Eb' HN'. specialize (S2 Hge). destruct r as [ts1|]; [|congruence]. destruct S2 as (srt & Hsrt & ->). injection Er as <-.
  specialize (Vr ts1 eq_refl). apply (Gain Hh ts1 x k N' eq_refl Eb').
  destruct (visited_sort _ _ _ _ _ Vr Hsrt) as (Vs & _). apply total_for_min in HN'.
  eapply total_same; [apply same_dict_sym, sv_same_dict, (ts_sort_sorted _ _ Hsrt)|exact HN'|apply (vi_usable _ _ _ _ Vr)].
Qed.

(** The hypotheses are met: the first set of an optimization to 10 tokens, with two tokens of one bit. *)
Theorem C113_hypotheses_met : forall samples init, exists ts a,
  supported Bits1 10 /\ good_start 10 Raw Bits1 (Some ts) /\ ntokens ts = 2 /\ fresh_answer samples init (WithPairs ts) a.
Proof.
  intros samples init. destruct (first_set Raw Bits1) as [ts|] eqn:E; [|discriminate].
  destruct (first_visited _ _ _ E) as (V & N & _).
  destruct (answer_total samples init (WithPairs ts)) as (a & Ea); [apply (visited_askable Bits1 Raw true); exact V|].
  exists ts, a. split; [split; cbn; lia|]. split; [exists true; split; [exact V|rewrite N; cbn; lia]|]. split; [exact N|apply fresh_answer_iff; exact Ea].
Qed.
