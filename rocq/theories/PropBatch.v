(** * Properties C11-C14: parallel tokenization and merging. *)
From Verif Require Import Base BaseLemmas TokenSetModel TokenizerModel TokSpec
  TokenizerProof1 TokenSetProof BatchModel StatsAlgebra BatchProof PropTokenizer.

(** ** C11 *)
Theorem C11_parallel_equals_sequential : forall ts tk init n samples c st,
  tokenizer_new ts = Ret tk -> seqs_in_range ts -> 1 <= n ->
  steps ts tk init false (start ts n samples) c -> c_main c = MReturned st ->
  tokenize_file_sync ts samples init = Ret st.
Proof.
  intros ts tk init n samples c st Htk Hr Hn H E.
  pose proof (inv_steps ts tk init false n samples Htk Hr Hn c H) as I.
  destruct (inv_returned ts tk init false n samples Hn c st I E) as (-> & _).
  apply sync_eq; assumption.
Qed.

(** Whatever the size and the number of workers, all results agree. *)
Theorem C11_result_is_unique : forall ts init n samples total st,
  seqs_in_range ts -> 1 <= n -> par_result ts n total samples init st ->
  tokenize_file_sync ts samples init = Ret st.
Proof.
  intros ts init n samples total st Hr Hn H. destruct H as [s _ H|tk c s _ Htk H E]; [exact H|].
  eapply C11_parallel_equals_sequential; eauto.
Qed.

(** The sequential version does not depend on how the data is ordered. *)
Theorem C11_sample_order_irrelevant : forall ts tk init l1 l2,
  tokenizer_new ts = Ret tk -> seqs_in_range ts -> Permutation l1 l2 ->
  exists st, tokenize_file_sync ts l1 init = Ret st /\ tokenize_file_sync ts l2 init = Ret st.
Proof.
  intros ts tk init l1 l2 Htk Hr H. exists (tally ts tk init l1). split.
  - apply sync_eq; assumption.
  - rewrite (sync_eq ts tk Htk Hr). f_equal. symmetry. apply tally_perm; assumption.
Qed.

(** ** C12 *)
(** No reachable state is stuck before the end; [fails = true] is the case of a
    sampler that panics. *)
Theorem C12_no_deadlock : forall ts tk init fails n samples c,
  tokenizer_new ts = Ret tk -> seqs_in_range ts -> 1 <= n -> ~ In [] samples ->
  steps ts tk init fails (start ts n samples) c ->
  final c \/ exists c', step ts tk init fails c c'.
Proof.
  intros ts tk init fails n samples c Htk Hr Hn Hs H.
  pose proof (inv_steps ts tk init fails n samples Htk Hr Hn c H) as I.
  destruct (c_main c) eqn:E; try (right; apply (progress ts tk init fails n samples Htk Hr Hn c I Hs);
    unfold final; rewrite E; auto; fail); left; unfold final; rewrite E; exact Logic.I.
Qed.

(** [k] steps *)
Inductive stepsn (ts : tokenset) (tk : tokenizer) (init : option nat) (fails : bool)
  : nat -> config -> config -> Prop :=
| sn_0 c : stepsn ts tk init fails 0 c c
| sn_S k c c' c'' : stepsn ts tk init fails k c c' -> step ts tk init fails c' c'' ->
    stepsn ts tk init fails (S k) c c''.

(** Every execution has at most 5 |samples| + 5 n + 4 steps. *)
Theorem C12_executions_are_bounded : forall ts tk init fails n samples k c,
  stepsn ts tk init fails k (start ts n samples) c -> k <= 5 * length samples + 5 * n + 4.
Proof.
  intros ts tk init fails n samples k c H.
  assert (G : k + measure c <= measure (start ts n samples)).
  { remember (start ts n samples) as c0. clear Heqc0. induction H as [|k c c' c'' _ IH S]; [lia|].
    apply step_measure in S. lia. }
  assert (E : measure (start ts n samples) = 5 * length samples + 5 * n + 4).
  { unfold measure, start; cbn [c_main c_jobs c_results c_workers m_weight length].
    rewrite repeat_length.
    assert (Es : sum (map w_weight (repeat (WIdle (stats_new ts None) []) n)) = 4 * n).
    { clear. induction n as [|n IH]; cbn in *; [reflexivity|]. unfold sum in IH. lia. }
    rewrite Es. lia. }
  lia.
Qed.

Theorem C12_no_infinite_execution : forall ts tk init fails n samples (run : nat -> config),
  run 0 = start ts n samples ->
  exists k, ~ step ts tk init fails (run k) (run (S k)).
Proof.
  intros ts tk init fails n samples run H0.
  (* some index at which the measure does not drop *)
  assert (D : forall m k, measure (run k) <= m ->
            exists j, ~ measure (run (S j)) < measure (run j)).
  { induction m as [|m IH]; intros k Hk.
    - exists k. lia.
    - destruct (Nat.lt_ge_cases (measure (run (S k))) (measure (run k))) as [Hlt|Hge].
      + apply (IH (S k)). lia.
      + exists k. lia. }
  destruct (D (measure (run 0)) 0 (le_n _)) as (j & Hj).
  exists j. intros S. apply Hj. eapply step_measure; exact S.
Qed.

(** With non-empty samples and a sampler that does not panic, every execution
    that cannot go on has returned the sequential result. *)
Theorem C12_maximal_executions_return : forall ts tk init n samples c,
  tokenizer_new ts = Ret tk -> seqs_in_range ts -> 1 <= n -> ~ In [] samples ->
  steps ts tk init false (start ts n samples) c ->
  (forall c', ~ step ts tk init false c c') ->
  exists st, c_main c = MReturned st /\ tokenize_file_sync ts samples init = Ret st.
Proof.
  intros ts tk init n samples c Htk Hr Hn Hs H Hstuck.
  destruct (C12_no_deadlock ts tk init false n samples c Htk Hr Hn Hs H) as [Hf|(c' & S)];
    [|exfalso; eapply Hstuck; exact S].
  pose proof (inv_steps ts tk init false n samples Htk Hr Hn c H) as I.
  destruct (c_main c) eqn:E; unfold final in Hf; rewrite E in Hf; try contradiction.
  - exists st. split; [reflexivity|]. eapply C11_parallel_equals_sequential; eauto.
  - destruct I as [(lm & rest & lrs & lws & Hm & _) _ _ _ _ _ _]. rewrite E in Hm.
    destruct Hm as (_ & _ & Hm). discriminate.
Qed.

(** The hypotheses are met, and there is an execution that returns: one worker,
    one sample. *)
Theorem C12_some_execution_returns : forall ts tk init n samples,
  tokenizer_new ts = Ret tk -> seqs_in_range ts -> 1 <= n -> ~ In [] samples ->
  exists c st, steps ts tk init false (start ts n samples) c /\ c_main c = MReturned st.
Proof.
  intros ts tk init n samples Htk Hr Hn Hs.
  (* follow progress until nothing is left to do *)
  assert (G : forall m c, measure c <= m -> steps ts tk init false (start ts n samples) c ->
    exists c' , steps ts tk init false (start ts n samples) c' /\ final c').
  { induction m as [|m IH]; intros c Hm Hc;
      destruct (C12_no_deadlock ts tk init false n samples c Htk Hr Hn Hs Hc) as [Hf|(c' & S)];
      try (exists c; split; assumption).
    - apply step_measure in S. lia.
    - apply (IH c'); [apply step_measure in S; lia|]. econstructor; [exact Hc|exact S]. }
  destruct (G _ _ (le_n _) (steps_refl _ _ _ _ _)) as (c & Hc & Hf).
  exists c.
  pose proof (inv_steps ts tk init false n samples Htk Hr Hn c Hc) as I.
  unfold final in Hf. destruct (c_main c) eqn:E; try contradiction.
  - exists st. auto.
  - destruct I as [(lm & rest & lrs & lws & Hm & _) _ _ _ _ _ _]. rewrite E in Hm.
    destruct Hm as (_ & _ & Hm). discriminate.
Qed.

Example C11_C12_example : exists tk c st,
  tokenizer_new ex_set = Ret tk /\
  steps ex_set tk (Some 1) false (start ex_set 3 [[x61]; [x62; x63]]) c /\ c_main c = MReturned st.
Proof.
  destruct C01_example as (tk & Htk).
  destruct ex_set_ok as (_ & Hr & _).
  destruct (C12_some_execution_returns ex_set tk (Some 1) 3 [[x61]; [x62; x63]] Htk Hr) as (c & st & H).
  - lia.
  - intros [H|[H|[]]]; discriminate.
  - eauto.
Qed.

(** ** C13 *)
(** A panic of the sampler is reported: every maximal execution ends with it. *)
Theorem C13_sampler_panic_is_reported_partial : forall ts tk init n samples c,
  tokenizer_new ts = Ret tk -> seqs_in_range ts -> 1 <= n -> ~ In [] samples ->
  steps ts tk init true (start ts n samples) c ->
  (forall c', ~ step ts tk init true c c') -> c_main c = MPanicked.
Proof.
  intros ts tk init n samples c Htk Hr Hn Hs H Hstuck.
  destruct (C12_no_deadlock ts tk init true n samples c Htk Hr Hn Hs H) as [Hf|(c' & S)];
    [|exfalso; eapply Hstuck; exact S].
  pose proof (inv_steps ts tk init true n samples Htk Hr Hn c H) as I.
  destruct (c_main c) eqn:E; unfold final in Hf; rewrite E in Hf; try contradiction; [|reflexivity].
  destruct (inv_returned ts tk init true n samples Hn c st I E) as (_ & _ & Hx & _). discriminate.
Qed.

(** A worker panic is not: if some sample is empty, no execution ever returns
    or panics, so (executions being finite) all of them hang. *)
Theorem C13_worker_panic_hangs_refuted : forall ts tk init n samples c,
  tokenizer_new ts = Ret tk -> seqs_in_range ts -> 1 <= n -> In [] samples ->
  steps ts tk init false (start ts n samples) c -> ~ final c.
Proof.
  intros ts tk init n samples c Htk Hr Hn Hs H Hf.
  pose proof (inv_steps ts tk init false n samples Htk Hr Hn c H) as I.
  unfold final in Hf. destruct (c_main c) eqn:E; try contradiction.
  - destruct (inv_returned ts tk init false n samples Hn c st I E) as (_ & Hno & _). auto.
  - destruct I as [(lm & rest & lrs & lws & Hm & _) _ _ _ _ _ _]. rewrite E in Hm.
    destruct Hm as (_ & _ & Hm). discriminate.
Qed.

(** A hang on a concrete input, reached and stuck. *)
Example C13_hang_example : exists tk c,
  tokenizer_new ex_set = Ret tk /\
  steps ex_set tk None false (start ex_set 1 [[]]) c /\ ~ final c /\
  forall c', ~ step ex_set tk None false c c'.
Proof.
  destruct C01_example as (tk & Htk). exists tk.
  set (w0 := stats_new ex_set None).
  exists (mkConfig (MRecv 1 w0) [] true [] [WDead]). split; [exact Htk|]. split; [|split].
  - unfold start. cbn [repeat].
    eapply steps_step with (c' := mkConfig (MSend []) [] false [] [WDead]);
      [|apply (st_close ex_set tk None false [] false [] [WDead]); reflexivity].
    eapply steps_step with (c' := mkConfig (MSend []) [] false [] [WBusy w0 [] []]);
      [|apply (st_work ex_set tk None false 0 w0 [] [] (MSend []) [] false [] [WBusy w0 [] []]); reflexivity].
    eapply steps_step with (c' := mkConfig (MSend []) [[]] false [] [WHold w0 []]);
      [|apply (st_take ex_set tk None false 0 w0 [] [] (MSend []) [] false [] [WHold w0 []]); reflexivity].
    eapply steps_step with (c' := mkConfig (MSend []) [[]] false [] [WIdle w0 []]);
      [|apply (st_lock ex_set tk None false 0 w0 [] (MSend []) [[]] false [] [WIdle w0 []]); reflexivity].
    eapply steps_step with (c' := mkConfig (MSend [[]]) [] false [] [WIdle w0 []]);
      [apply steps_refl|].
    apply (st_send ex_set tk None false [] [] [] false [] [WIdle w0 []]). cbn; lia.
  - intros [].
  - intros c' S. inversion S; subst;
      match goal with H : nth_error [WDead] ?i = Some _ |- _ => destruct i as [|[|]]; discriminate end.
Qed.

(** The sequential version accepts empty samples. *)
Theorem C13_sequential_accepts_empty : forall ts tk init samples,
  tokenizer_new ts = Ret tk -> seqs_in_range ts ->
  exists st, tokenize_file_sync ts samples init = Ret st.
Proof. intros ts tk init samples Htk Hr. rewrite (sync_eq ts tk Htk Hr). eauto. Qed.

(** ** C14 *)
Theorem C14_merge_total : forall ts a b, matches ts a -> matches ts b ->
  exists r, merge a b = Ret r /\ matches ts r /\
    st_token_set r = st_token_set a /\ initial_size r = initial_size a /\
    total_tokens r = total_tokens a + total_tokens b /\
    scanned_bytes r = scanned_bytes a + scanned_bytes b /\
    (forall i, nth i (token_counts r) 0 = nth i (token_counts a) 0 + nth i (token_counts b) 0) /\
    (forall i, nth i (seq_counts r) 0 = nth i (seq_counts a) 0 + nth i (seq_counts b) 0) /\
    (forall i, nth i (pair_counts r) 0 = nth i (pair_counts a) 0 + nth i (pair_counts b) 0).
Proof.
  intros ts a b Ha Hb. exists (madd a b). split; [apply (merge_eq ts); assumption|].
  split; [apply matches_madd; assumption|].
  destruct Ha as (_ & A2 & A3 & A4), Hb as (_ & B2 & B3 & B4). cbn.
  split; [reflexivity|]. split; [reflexivity|]. split; [reflexivity|]. split; [reflexivity|].
  split; [|split]; intros i; apply nth_zadd; congruence.
Qed.

Theorem C14_merge_commutative : forall ts a b, matches ts a -> matches ts b ->
  initial_size a = initial_size b -> merge a b = merge b a.
Proof.
  intros ts a b Ha Hb E. rewrite !(merge_eq ts) by assumption. f_equal.
  destruct Ha as (A1 & _), Hb as (B1 & _). unfold madd.
  rewrite (zadd_comm (token_counts a)), (zadd_comm (seq_counts a)), (zadd_comm (pair_counts a)).
  f_equal; try lia; congruence.
Qed.

Theorem C14_merge_associative : forall ts a b c, matches ts a -> matches ts b -> matches ts c ->
  (ab <- merge a b ;; merge ab c) = (bc <- merge b c ;; merge a bc).
Proof.
  intros ts a b c Ha Hb Hc. rewrite (merge_eq ts a b), (merge_eq ts b c) by assumption. cbn.
  rewrite !(merge_eq ts) by (try apply matches_madd; assumption). f_equal. apply madd_assoc.
Qed.

Theorem C14_merge_fresh : forall ts a init, matches ts a -> merge a (stats_new ts init) = Ret a.
Proof.
  intros ts a init Ha. rewrite (merge_eq ts) by (try apply matches_new; assumption).
  f_equal. apply madd_new; exact Ha.
Qed.

(** a token set with two tokens and one sequence *)
Definition unsorted2 : tokenset :=
  mkTS 0 BytesHuff Raw false [Str [x61]; Str [x62]] [mkSeq [x63] [0; 1]].
Example C14_example :
  merge (mkStats unsorted2 3 (Some 9) 4 [1; 2] [0] [0; 1; 2; 3])
        (mkStats unsorted2 2 None 5 [1; 1] [1] [4; 0; 0; 1])
  = Ret (mkStats unsorted2 5 (Some 9) 9 [2; 3] [1] [4; 1; 2; 4]).
Proof. reflexivity. Qed.
