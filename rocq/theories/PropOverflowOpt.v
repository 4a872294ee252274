(** * Property C99: the arithmetic of the search does not overflow. *)
From Coq Require Import ZArith.
From Verif Require Import Base BaseLemmas TokenSetModel TokenizerModel TokSpec SortLemmas TokenizerProof1 TokenizerProof2
  TokenizerTheory TokenSetProof TokenSetProof2 PropTokenizer PropTokenSet StatsAlgebra BatchModel PropBatch
  PropJson Shaped CacheModel PropCache OptBytesModel OptBytesProof OptBytesProof2
  OptBytesProof3 OptBytesProof4 PropOptBytes OptimizeModel OptimizeProof1 OptimizeProof2 OptimizeProof3 OptimizeProof4 OptimizeProof5 OptimizeProof6
  OptimizeProof7 OptimizeProof8 PropOptimize PropDeterminism OverflowModel PropOverflow OverflowOptModel OverflowOptProof1 OverflowOptProof2 OverflowOptProof3.

(** ** Answers *)
Section Answers.
Variables (M : nat) (ts : tokenset) (tk : tokenizer).
Hypothesis Htk : tokenizer_new ts = Ret tk.
Hypothesis Hr : seqs_in_range ts.
Hypothesis Hq : forall q, In q (sequences ts) -> length (seq_tokens q) <= 258.
Hypothesis HN : ntokens ts * ntokens ts <= M.
Local Notation tally := (tally ts tk).

Lemma wall_tally init l : 258 * length (concat l) < M ->
  (exists b, wprocess_all M tk l (stats_new ts init, []) = Ret (tally init l, b)) /\ in_bounds 258 (length (concat l)) (tally init l).
Proof.
  intros HM. destruct (all_w M ts tk 258 Htk Hr ltac:(lia) Hq l 0 (stats_new ts init) [] (matches_new ts init) (new_bounds ts 258 ltac:(lia) init) HM HN)
    as (E & s' & b' & E' & _ & B).
  destruct (process_all_eq ts tk Htk Hr l (stats_new ts init) [] (matches_new ts init)) as (b & E2).
  rewrite E2 in E'. injection E' as Es _. fold (tally init l) in *. subst s'. split; [|exact B]. exists b. rewrite E. exact E2.
Qed.

Lemma gather_tally init parts : forall done, 258 * (length (concat done) + length (concat (concat parts))) < M ->
  w_gather M tk ts parts (tally init done) = Ret (tally init (done ++ concat parts)).
Proof.
  induction parts as [|l parts IH]; intros done HM; cbn [w_gather concat].
  - rewrite app_nil_r. reflexivity.
  - cbn [concat] in HM. rewrite concat_app, app_length in HM.
    destruct (wall_tally None l ltac:(lia)) as ((b & E) & B). rewrite E. cbn [bind].
    destruct (wall_tally init done ltac:(lia)) as (_ & B0).
    rewrite (merge_w M 258 ltac:(lia) _ _ _ _ B0 B) by lia.
    rewrite (merge_eq ts) by apply (tally_matches ts tk Htk Hr). cbn [bind].
    rewrite <- (tally_app ts tk Htk Hr). rewrite IH by (rewrite concat_app, app_length; lia). rewrite app_assoc. reflexivity.
Qed.
End Answers.

Lemma concat_perm_length {A} (a b : list (list A)) : Permutation a b -> length (concat a) = length (concat b).
Proof.
  induction 1; cbn [concat]; rewrite ?app_length; lia.
Qed.

Lemma visited_seq_lengths t p sp ts q : visited t p sp ts -> In q (sequences ts) -> length (seq_tokens q) <= 258.
Proof.
  intros V Hq. destruct (vi_seqs _ _ _ _ V (denotes ts q) (in_map _ _ _ Hq)) as (_ & H). cbn [denotes snd] in H.
  rewrite map_length in H. destruct t; cbn [digits_of] in H; lia.
Qed.

Lemma w_answer_answer M samples init r a t p sp : visited t p sp (requested r) -> 258 * length (concat samples) < M ->
  ntokens (requested r) * ntokens (requested r) <= M -> w_answer M samples init r a -> answer samples init r = Ret a.
Proof.
  intros V HM HN H. unfold answer. destruct H as [r ts' tk s b Es Et E|r ts' tk parts s Es Et HP E];
    destruct (visited_sort _ _ _ _ _ V Es) as (V' & En & _); rewrite <- En in HN;
    rewrite Es; cbn [bind]; rewrite (sync_eq ts' tk Et (visited_range _ _ _ _ V')); cbn [bind];
    pose proof (fun q => visited_seq_lengths _ _ _ _ q V') as Hq.
  - destruct (wall_tally M ts' tk Et (visited_range _ _ _ _ V') Hq HN init samples HM) as ((b' & E') & _).
    rewrite E in E'. injection E' as -> _. reflexivity.
  - pose proof (gather_tally M ts' tk Et (visited_range _ _ _ _ V') Hq HN init parts []) as G.
    cbn [app] in G. unfold tally at 1 in G. cbn [fold_left] in G. rewrite G in E.
    + apply ret_inj in E. subst s. pose proof (tally_perm ts' tk init _ _ HP) as T. destruct r; f_equal; [|f_equal]; symmetry; exact T.
    + exact (eq_ind_r (fun x => 258 * (0 + x) < M) HM (concat_perm_length _ _ HP)).
Qed.

Lemma w_answer_exists M samples init r a t p sp : visited t p sp (requested r) -> 258 * length (concat samples) < M ->
  ntokens (requested r) * ntokens (requested r) <= M -> answer samples init r = Ret a -> w_answer M samples init r a.
Proof.
  intros V HM HN H. unfold answer in H. apply bind_ret in H as (ts' & Es & H). apply bind_ret in H as (s & E & H). injection H as <-.
  destruct (visited_sort _ _ _ _ _ V Es) as (V' & En & _). rewrite <- En in HN.
  pose proof (proj2 (C01_tokenizer_exists_iff_usable ts') (vi_usable _ _ _ _ V')) as (tk & Et).
  rewrite (sync_eq ts' tk Et (visited_range _ _ _ _ V')) in E. injection E as <-.
  destruct (wall_tally M ts' tk Et (visited_range _ _ _ _ V') (fun q => visited_seq_lengths _ _ _ _ q V') HN init samples HM) as ((b & E) & _).
  eapply w_sequential; eauto.
Qed.

(** ** Runs *)
Lemma sim_run {A} M samples init (p q : prog A) Q : 258 * length (concat samples) < M -> sim M samples init p q Q ->
  (forall sv o, w_run M samples init q sv o -> o = outcome_of samples init p /\ sv = saves_of samples init p) /\
  (exists sv a, w_run M samples init q sv (Ret a)).
Proof.
  intros HM. revert q. induction p as [o|r k IH|ts k IH]; intros [o'|r' k'|ts' k']; cbn [sim]; try contradiction.
  - intros (a & -> & -> & _). split; [|exists [], a; constructor]. intros sv o H. inversion H; subst. split; reflexivity.
  - intros (-> & (t & p & sp & V) & HN & H). split.
    + intros sv o Hw. inversion Hw as [|r0 k0 a sv0 o0 Ha Hk|]; subst. pose proof (w_answer_answer _ _ _ _ _ _ _ _ V HM HN Ha) as E.
      cbn [outcome_of saves_of]. rewrite E. apply (IH a (k' a) (H a (proj2 (fresh_answer_iff _ _ _ _) E))). exact Hk.
    + destruct (ts_sort_total (requested r) (visited_range _ _ _ _ V)) as (ts' & Es).
      destruct (visited_sort _ _ _ _ _ V Es) as (V' & _).
      pose proof (proj2 (C01_tokenizer_exists_iff_usable ts') (vi_usable _ _ _ _ V')) as (tk & Et).
      assert (E : exists a, answer samples init r = Ret a).
      { unfold answer. rewrite Es. cbn [bind]. rewrite (sync_eq ts' tk Et (visited_range _ _ _ _ V')). eexists. reflexivity. }
      destruct E as (a & E). destruct (IH a (k' a) (H a (proj2 (fresh_answer_iff _ _ _ _) E))) as (_ & sv & b & Hw).
      exists sv, b. eapply wr_ask; [|exact Hw]. eapply w_answer_exists; eauto.
  - intros (-> & H). destruct (IH k' H) as (H1 & sv & a & H2). split.
    + intros sv0 o Hw. inversion Hw as [| |ts0 k0 sv1 o1 Hk]; subst. cbn [outcome_of saves_of]. destruct (H1 _ _ Hk) as (-> & ->). split; reflexivity.
    + exists (ts :: sv), a. constructor. exact H2.
Qed.

Lemma limit_258 M L : 512 * 512 * S L <= M -> 258 * L < M.
Proof. intros H. assert (512 * 512 * S L = 512 * 512 * L + 512 * 512) by (rewrite Nat.mul_succ_r; reflexivity). lia. Qed.

(** ** C99

    [M] is 2^64.  A run of the search with 64-bit integers, in a debug or in
    a release build, with the samples tokenized sequentially or distributed
    among threads in any way, returns: it does not panic, and it returns and
    saves what an execution without bounds on the integers returns and saves. *)
Theorem C99_search_does_not_overflow : forall bd M samples init order clock n p t pre rounds,
  shuffles order -> supported t n -> good_start n p t pre -> round_bound samples n <= rounds ->
  512 * 512 * S (length (concat samples)) <= M -> n * n <= M -> round_bound samples n < M ->
  (exists saved s, w_run M samples init (w_optimize_tokenset bd M order clock rounds n p t pre) saved (Ret s)) /\
  (forall saved o, w_run M samples init (w_optimize_tokenset bd M order clock rounds n p t pre) saved o ->
     (exists s, o = Ret s) /\
     forall threads total m s, 1 <= threads -> optimizing threads total samples init order clock n p t pre rounds m -> returned m s ->
       o = Ret s /\ saved = m_saved m).
Proof.
  intros bd M samples init order clock n p t pre rounds Ho Hs Hp Hr HM HN HB.
  pose proof (optimize_sim bd M samples init order clock n p t pre rounds Ho Hs Hp HM HN HB Hr) as S.
  destruct (sim_run M samples init _ _ _ (limit_258 _ _ HM) S) as (H1 & saved0 & s0 & H2). split; [eauto|].
  intros saved o Hw. destruct (H1 _ _ Hw) as (Eo & Es). destruct (H1 _ _ H2) as (E0 & _). split; [exists s0; congruence|].
  intros threads total m s Ht Hm R. pose proof (optimize_okT samples init order clock n p t pre rounds Ho Hs Hp Hr) as K.
  destruct (okT_outcome _ threads total samples init _ _ Ht K m Hm) as (S1 & O1). unfold returned in R. rewrite R in S1, O1.
  cbn [outcome_of saves_of] in S1, O1. rewrite app_nil_r in S1. split; congruence.
Qed.

(** 64 bits, a terabyte of data and 65536 tokens *)
Lemma limits_64 M L n : N.of_nat M = (2 ^ 64)%N -> (N.of_nat L <= 10 ^ 12)%N -> (N.of_nat n <= 65536)%N ->
  512 * 512 * S L <= M /\ n * n <= M /\ S (n * S (258 * L) + 258 * L) < M.
Proof.
  change (2 ^ 64)%N with 18446744073709551616%N. change (10 ^ 12)%N with 1000000000000%N. intros HM HL Hn.
  assert (G : (N.of_nat n * N.of_nat L <= 65536 * 1000000000000)%N) by (apply N.mul_le_mono; assumption).
  assert (G2 : (N.of_nat n * N.of_nat n <= 65536 * 65536)%N) by (apply N.mul_le_mono; assumption).
  rewrite <- !Nat2N.inj_mul in G, G2. split; [lia|]. split; [lia|].
  assert (E : n * S (258 * L) = n + 258 * (n * L)) by (rewrite Nat.mul_succ_r, Nat.mul_assoc, (Nat.mul_comm n 258), <- Nat.mul_assoc; apply Nat.add_comm).
  rewrite E. lia.
Qed.

Theorem C99_a_terabyte_and_65536_tokens : forall bd M samples init order clock n p t pre rounds,
  N.of_nat M = (2 ^ 64)%N -> (N.of_nat (length (concat samples)) <= 10 ^ 12)%N -> (N.of_nat n <= 65536)%N ->
  shuffles order -> supported t n -> good_start n p t pre -> round_bound samples n <= rounds ->
  (exists saved s, w_run M samples init (w_optimize_tokenset bd M order clock rounds n p t pre) saved (Ret s)) /\
  (forall saved o, w_run M samples init (w_optimize_tokenset bd M order clock rounds n p t pre) saved o ->
     (exists s, o = Ret s) /\
     forall threads total m s, 1 <= threads -> optimizing threads total samples init order clock n p t pre rounds m -> returned m s ->
       o = Ret s /\ saved = m_saved m).
Proof.
  intros bd M samples init order clock n p t pre rounds HM HL Hn Ho Hs Hp Hr.
  destruct (limits_64 M _ n HM HL Hn) as (H1 & H2 & H3).
  apply C99_search_does_not_overflow; assumption.
Qed.

(** Without the bounds the results change: what happens with 8 bits. *)
Theorem C99_limits_needed :
  w_best_pair Debug 256 [HLeaf 200 x61; HLeaf 100 x62; HLeaf 60 x63] = Panic /\
  (* 200 + 100 is 44: the two most frequent are joined instead of the last two *)
  w_best_pair Release 256 [HLeaf 200 x61; HLeaf 100 x62; HLeaf 60 x63] = Ret (Some (44, 0)) /\
  best_pair [HLeaf 200 x61; HLeaf 100 x62; HLeaf 60 x63] = Ret (Some (160, 1)) /\
  (* a count of 200 is a negative [i64] *)
  as_i64 256 200 = (-56)%Z /\ ineg Release 256 (as_i64 256 128) = Ret (-128)%Z /\ ineg Debug 256 (as_i64 256 128) = Panic.
Proof. repeat split; reflexivity. Qed.

Theorem C99_hypotheses_met : exists M samples order n rounds,
  N.of_nat M = (2 ^ 64)%N /\ (N.of_nat (length (concat samples)) <= 10 ^ 12)%N /\ (N.of_nat n <= 65536)%N /\
  shuffles order /\ supported Bits4 n /\ good_start n Raw Bits4 None /\ round_bound samples n <= rounds /\ samples = [[x61; x62]; [x61]].
Proof.
  exists (N.to_nat (2 ^ 64)), [[x61; x62]; [x61]], (fun _ l => rev l), 40, (round_bound [[x61; x62]; [x61]] 40).
  split; [apply N2Nat.id|]. split; [cbn; lia|]. split; [cbn; lia|].
  split; [intros m l; symmetry; apply Permutation_rev|]. split; [unfold supported; cbn; lia|]. split; [exact I|]. split; [apply le_n|reflexivity].
Qed.
