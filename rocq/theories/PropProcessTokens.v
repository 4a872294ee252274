(** * Property C121, continued: how many tokens processed data can need. *)
From Verif Require Import Base BaseLemmas Utf8 SamplerModel TokenSetModel TokenizerModel TokSpec TokenizerTheory PropTokenizer PropOptimize
  ProcessingModel PropProcessing CommandsModel PropProcessSize PropLocal PropRatioRange.

(** A token set in which no byte costs more than [dearest] tokens needs at most
    [dearest] times the bound of [C121_at_most_file] for the processed form of a data
    file, however it is cut into pieces, and never less than the processed
    characters divided by the longest string. *)
Theorem C121_tokens_needed : forall U K script raw data ts longest dearest samples N, table_ok U -> 1 <= K ->
  (forall c, length (concat (lower_char U c)) <= K * length c) ->
  maybe_process U script raw None CapsWords = Ret data -> concat samples = data ->
  bounds ts longest dearest -> min_total ts samples N ->
  N <= dearest * ((K + 1) * (length raw + 1) + 1) /\ length data <= longest * N.
Proof.
  intros U K script raw data ts longest dearest samples N Hok HK Hl Hd <- B M.
  destruct (total_range _ _ _ _ _ B M) as (R1 & R2). split; [|exact R2].
  cbn [maybe_process] in Hd.
  destruct (process_file U default_capacity script raw) as [[ok out]| |] eqn:E; cbn [bind] in Hd; try discriminate.
  destruct ok; cbn [assert_that bind] in Hd; try discriminate. injection Hd as ->.
  pose proof (C121_at_most_file U K _ script raw _ _ Hok HK Hl E). nia.
Qed.

Theorem C121_tokens_needed_met : exists data ts samples N,
  table_ok ascii_table /\ (forall c, length (concat (lower_char ascii_table c)) <= 1 * length c) /\
  maybe_process ascii_table [] [x61; x62; x63] None CapsWords = Ret data /\ concat samples = data /\ 3 <= length data /\
  bounds ts 3 1 /\ min_total ts samples N /\ 1 <= N <= 9.
Proof.
  destruct C121_hypotheses_met as (H1 & H2 & _ & Hn & _).
  assert (Hu : utf8 [x61; x62; x63]) by (apply utf8_valid_spec; reflexivity).
  destruct (C33_file_processing ascii_table default_capacity [] [x61; x62; x63] H1 Hn Hu) as (out & Ho & Hp).
  assert (Hm : maybe_process ascii_table [] [x61; x62; x63] None CapsWords = Ret out).
  { cbn [maybe_process]. rewrite Hp. reflexivity. }
  destruct PropLocal.C105_hypotheses_met as (ts & tk & i & n & na & nb & nab & B & Us & _).
  destruct (min_tokens_exists ts out Us) as (k & Hk).
  assert (M : min_total ts [out] k).
  { exists [k]. split; [constructor; [exact Hk|constructor]|]. unfold sum. cbn [fold_right]. lia. }
  assert (Ec : concat [out] = out) by (cbn; apply app_nil_r).
  destruct (C121_tokens_needed ascii_table 1 [] _ out ts 3 1 [out] k H1 (le_n _) H2 Hm Ec B M) as (R1 & R2).
  cbn [length] in R1.
  assert (L : out = [x61; x62; x63; x16; x0a]).
  { assert (E : process_str ascii_table (lines_text [x61; x62; x63]) = Ret [x61; x62; x63; x16; x0a]) by reflexivity.
    rewrite E in Ho. injection Ho as <-. reflexivity. }
  exists out, ts, [out], k. do 4 (split; [assumption|]).
  split; [rewrite L; cbn [length]; lia|]. split; [exact B|]. split; [exact M|].
  rewrite L in R2. cbn [length] in R2. lia.
Qed.
