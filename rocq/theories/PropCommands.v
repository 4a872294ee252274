(** * Properties C58, C59, C61, C62: the commands convert-tokens and optimize. *)
From Coq Require Import String.
From Verif Require Import PropProcessing.
From Verif Require Import Base BaseLemmas Utf8 TokenSetModel TokenizerModel TokSpec SortLemmas
  TokenizerProof1 TokenSetProof TokenizerTheory TokenSetProof2 PropTokenizer StatsAlgebra BatchModel PropBatch
  JsonModel JsonText JsonProof PropJson Shaped SamplerModel PropSampler ProcessingModel CacheModel PropCache OptBytesModel OptimizeModel
  OptimizeProof1 OptimizeProof2 OptimizeProof3 OptimizeProof4 OptimizeProof5 OptimizeProof6 OptimizeProof7 OptimizeProof8
  PropOptimize PropDeterminism PropFixpoint MainModel PropMain CommandsModel PropFiles.
Local Open Scope list_scope.
Local Notation length := List.length.

(** ** What sequential tokenization returns *)
Lemma tally_facts ts tk init (l : list bstr) : tokenizer_new ts = Ret tk -> seqs_in_range ts ->
  st_token_set (tally ts tk init l) = ts /\ initial_size (tally ts tk init l) = init /\
  scanned_bytes (tally ts tk init l) = length (concat l) /\ min_total ts l (total_tokens (tally ts tk init l)).
Proof.
  intros Htk Hr. induction l as [|x l IH] using rev_ind.
  - cbn. repeat split. exists []. split; [constructor|reflexivity].
  - rewrite tally_snoc. destruct IH as (I1 & I2 & I3 & (ns & I4 & I5)).
    destruct (tokenization_correct ts tk x Htk Hr) as (ps & cs & Ho & Hall).
    destruct (Hall (stats_new ts None) [] (matches_new ts None)) as (d & E & D).
    assert (Ed : delta ts tk x = d) by (unfold delta; rewrite E; reflexivity). rewrite Ed.
    pose proof (counted_total _ _ _ _ _ D) as T. pose proof (counted_scanned _ _ _ _ _ D) as S. cbn in T, S.
    unfold madd; cbn [st_token_set initial_size scanned_bytes total_tokens].
    split; [exact I1|]. split; [exact I2|]. split.
    + rewrite concat_app, app_length. cbn [concat]. rewrite app_nil_r. lia.
    + exists (ns ++ [length (stream ts ps)]). split.
      * apply Forall2_app; [exact I4|]. constructor; [|constructor]. exists ps. auto.
      * rewrite I5, T. unfold sum. rewrite fold_right_app. cbn [fold_right].
        clear. induction ns as [|a ns IH]; cbn; [lia|]. rewrite <- IH. lia.
Qed.

Lemma par_facts ts threads total (samples : list bstr) init s : seqs_in_range ts -> 1 <= threads ->
  par_result ts threads total samples init s ->
  (exists tk, tokenizer_new ts = Ret tk) /\ tokenize_file_sync ts samples init = Ret s /\
  st_token_set s = ts /\ initial_size s = init /\ scanned_bytes s = length (concat samples) /\ min_total ts samples (total_tokens s).
Proof.
  intros Hr Ht H. pose proof (C11_result_is_unique _ _ _ _ _ _ Hr Ht H) as E.
  destruct (tokenizer_new ts) as [tk| |] eqn:Etk; [|unfold tokenize_file_sync in E; rewrite Etk in E; discriminate..].
  split; [eauto|]. split; [exact E|]. rewrite (sync_eq _ _ Etk Hr) in E. apply ret_inj in E. subst s.
  apply tally_facts; assumption.
Qed.

(** ** Which data a command tokenizes *)
(** For the processing [p] of the token set: the raw file itself; or the
    processed file given on the command line; or, if none is given, the processed
    text of the raw file (which is then valid text) with its lines normalised, as
    far as it was written: at most one buffer of its end is missing, and nothing
    if no write is refused. *)
Inductive data_for (U : unicode) (script : list response) (raw : bstr) (processed : option bstr)
  : processing -> bstr -> Prop :=
| data_raw : data_for U script raw processed TokenSetModel.Raw raw
| data_given f : processed = Some f -> data_for U script raw processed CapsWords f
| data_made data missing : processed = None -> utf8 raw ->
    process_str U (lines_text raw) = Ret (data ++ missing) ->
    length missing <= default_capacity -> (never_refuses script -> missing = []) ->
    data_for U script raw processed CapsWords data.

Lemma utf8_dec s : utf8 s \/ ~ utf8 s.
Proof.
  destruct (utf8_valid s) eqn:E; [left; apply utf8_valid_spec; exact E|right].
  rewrite <- utf8_valid_spec. congruence.
Qed.

Lemma maybe_process_data U script raw processed p data : table_ok U ->
  maybe_process U script raw processed p = Ret data -> data_for U script raw processed p data.
Proof.
  intros Hok H. destruct p; cbn [maybe_process] in H; [apply ret_inj in H; subst; constructor|].
  destruct processed as [f|]; [apply ret_inj in H; subst; constructor; reflexivity|].
  destruct (utf8_dec raw) as [Hu|Hu].
  - destruct (C34_success_partial U default_capacity script raw Hok Hu) as (ok & sink & out & missing & E & Eo & Em & Hl).
    rewrite E in H. cbn [bind] in H. destruct ok; [|discriminate]. cbn [assert_that bind] in H.
    apply ret_inj in H. subst sink. apply (data_made _ _ _ _ _ missing);
      [reflexivity|exact Hu|rewrite Eo, Em; reflexivity|apply Hl; reflexivity|].
    intros Hn. destruct (C33_file_processing U default_capacity script raw Hok Hn Hu) as (out' & Eo' & E').
    rewrite E in E'. rewrite Eo in Eo'. apply ret_inj in E', Eo'. injection E' as E'.
    rewrite <- E', Em in Eo'. apply (app_inv_head data). rewrite app_nil_r. exact Eo'.
  - exfalso. destruct (C33_invalid_text_is_reported U default_capacity script raw Hok Hu) as (sink & E).
    rewrite E in H. discriminate.
Qed.

(** Conversely, without refused writes there is always data. *)
Lemma data_maybe_process U script raw processed p data : table_ok U -> never_refuses script ->
  data_for U script raw processed p data -> maybe_process U script raw processed p = Ret data.
Proof.
  intros Hok Hn H. destruct H as [|f ->|data missing -> Hu E Hl Hm]; [reflexivity|reflexivity|].
  destruct (C33_file_processing U default_capacity script raw Hok Hn Hu) as (out & Eo & E').
  cbn [maybe_process]. rewrite E'. cbn [bind assert_that]. rewrite E in Eo. apply ret_inj in Eo.
  rewrite (Hm Hn), app_nil_r in Eo. congruence.
Qed.

Section Commands.
Variables (U : unicode) (script : list response) (threads : nat) (ratio : nat -> nat -> bstr) (reads : nat -> nat).
Hypothesis Hthreads : 1 <= threads.

Local Notation conv := (converts U script threads ratio reads).

Lemma converts_facts raw processed tokens name text : conv raw processed tokens name text ->
  exists ts data samples s, read_token_set tokens = Ret ts /\ maybe_process U script raw processed (ts_processing ts) = Ret data /\
    full_samples reads data = Ret samples /\ par_result ts threads (full_size data) samples (Some (length raw)) s /\
    stats_text ratio s = Ret text /\ name = file_name ts /\
    seqs_in_range ts /\ (exists tk, tokenizer_new ts = Ret tk) /\ st_token_set s = ts /\
    initial_size s = Some (length raw) /\ scanned_bytes s = length (concat samples) /\ min_total ts samples (total_tokens s).
Proof.
  intros H. destruct H as [ts data samples s text H1 H2 H3 H4 H5].
  assert (Hr : seqs_in_range ts).
  { intros q i Hq Hi. exact (co_range _ (C60_loaded_file_consistent _ _ H1) q i Hq Hi). }
  destruct (par_facts _ _ _ _ _ _ Hr Hthreads H4) as (F1 & F2 & F3 & F4 & F5 & F6).
  exists ts, data, samples, s. auto 20.
Qed.

(** ** C58: converting keeps the set, converting twice changes nothing *)
Lemma convert_keeps raw processed tokens name text ts :
  read_token_set tokens = Ret ts -> split_paragraphs ts = false -> (ts_type ts = Bytes \/ ts_type ts = BytesHuff) ->
  (forall q, In q (sequences ts) -> 1 < length (seq_tokens q)) ->
  (forall data samples s, maybe_process U script raw processed (ts_processing ts) = Ret data -> full_samples reads data = Ret samples ->
     par_result ts threads (full_size data) samples (Some (length raw)) s -> writable ratio s) ->
  conv raw processed tokens name text ->
  read_token_set text = Ret ts /\ conv raw processed text name text.
Proof.
  intros Hread Hsp Hty Hlong Hw H.
  destruct (converts_facts _ _ _ _ _ H) as (ts' & data & samples & s & E1 & E2 & E3 & E4 & E5 & E6 & E7 & E8 & E9 & E10 & E11 & E12).
  rewrite Hread in E1. apply ret_inj in E1. subst ts'.
  assert (S : exists ss, shaped ts ss).
  { unfold read_token_set in Hread. apply bind_ret in Hread as (v & _ & Hv). eapply C60_loaded_shaped; eauto. }
  destruct S as (ss & S). rewrite <- E9 in S, Hsp, Hty.
  destruct (C56_bytes_sets_unchanged ratio s ss S (Hw _ _ _ E2 E3 E4) Hsp Hty) as (text' & Et & Er).
  rewrite E5 in Et. apply ret_inj in Et. subst text'. rewrite E9 in Er. split; [exact Er|].
  subst name. econstructor; eauto.
Qed.

(** Files of bits sets in which some byte is not a token: no output, ever. *)
Lemma convert_bits_fails raw processed tokens name text ts ss :
  shaped ts ss -> (ts_type ts = Bits1 \/ ts_type ts = Bits2 \/ ts_type ts = Bits4) ->
  (exists tk, tokenizer_new ts = Ret tk) -> (exists b : byte, ~ In (Str [b]) (TokenSetModel.tokens ts)) ->
  (set_text ts = Ret tokens \/ exists s, st_token_set s = ts /\ writable ratio s /\ stats_text ratio s = Ret tokens) ->
  ~ conv raw processed tokens name text.
Proof.
  intros S Hty Htk (b & Hb) Hf H.
  destruct (C22_round_trip_partial ts ss S) as ((j & Ej & Lj) & _).
  assert (R : read_token_set tokens = Ret (reloaded ts ss)).
  { destruct Hf as [Hf|(s & Es & W & Hf)].
    - assert (W : jwf j /\ jdepth j <= 127).
      { destruct (jwf_ts _ _ Ej) as (fs & _ & W & D & _). split; [exact W|lia]. }
      unfold set_text in Hf. rewrite Ej in Hf. cbn [bind] in Hf. apply ret_inj in Hf. subst tokens.
      unfold read_token_set. rewrite parse_show by apply W. exact Lj.
    - rewrite <- Es in S. destruct (C56_files_read_back_partial ratio s ss S W) as (t1 & t2 & _ & Et & _ & L).
      rewrite Hf in Et. apply ret_inj in Et. subst t2. rewrite L. f_equal. rewrite Es. reflexivity. }
  destruct (converts_facts _ _ _ _ _ H) as (ts' & data & samples & s & E1 & _ & _ & _ & _ & _ & _ & E8 & _).
  rewrite R in E1. apply ret_inj in E1. subst ts'. apply Hb.
  apply (proj1 (C23_bits_reload_usable_iff ts ss j _ S Hty Htk Ej Lj) E8).
Qed.

(** ** C62: the statistics written are those of the data *)
Definition stats_json (raw : nat) (scanned n total : nat) : json :=
  JObj [(lit "bytes_per_token", if total =? 0 then JNull else JReal (ratio raw total));
        (lit "initial_size", JNum raw); (lit "ntokens", JNum n);
        (lit "scanned_bytes", JNum scanned); (lit "total_tokens", JNum total)].

Lemma assoc_obj_set k v fs : assoc k (obj_set k v fs) = Some v.
Proof.
  induction fs as [|(k', v') fs IH]; cbn; [rewrite bstr_eqb_refl; reflexivity|].
  destruct (bstr_cmp k k') eqn:E; cbn; try (rewrite bstr_eqb_refl; reflexivity).
  destruct (bstr_eqb k k') eqn:E2; [|exact IH]. apply bstr_eqb_eq in E2. subst k'.
  rewrite (proj2 (bstr_cmp_eq k k) eq_refl) in E. discriminate.
Qed.

Lemma stats_in_file s text raw : writable ratio s -> stats_text ratio s = Ret text -> initial_size s = Some raw ->
  exists v, parse_json text = Some v /\
  jindex v (lit "stats") = stats_json raw (scanned_bytes s) (ntokens (st_token_set s)) (total_tokens s).
Proof.
  clear Hthreads. intros W H Hi. unfold stats_text in H. apply bind_ret in H as (v & E & H). apply ret_inj in H. subst text.
  pose proof E as E0. unfold stats_to_json in E. apply bind_ret in E as (j & Ej & E).
  destruct (jwf_ts _ _ Ej) as (fs & -> & _). apply ret_inj in E. subst v.
  destruct (jwf_stats ratio s W) as (W1 & D1).
  destruct (jwf_stats_json _ _ _ Ej W1 D1) as (fs2 & E2 & W2 & D2). rewrite E0 in E2. apply ret_inj in E2.
  rewrite <- E2 in W2, D2. eexists. split; [apply parse_show; [exact W2|lia]|].
  unfold jindex, jget. rewrite assoc_obj_set. unfold stats_object, stats_json. rewrite Hi. reflexivity.
Qed.
End Commands.

(** ** The theorems on convert-tokens *)

(** False for bits sets: no file the program writes for a bits set in which some byte is
    not a token can be converted. *)
Theorem C58_convert_keeps_set_refuted : forall U script threads ratio reads raw processed ts ss tokens,
  1 <= threads -> shaped ts ss -> (ts_type ts = Bits1 \/ ts_type ts = Bits2 \/ ts_type ts = Bits4) ->
  (exists tk, tokenizer_new ts = Ret tk) -> (exists b : byte, ~ In (Str [b]) (TokenSetModel.tokens ts)) ->
  (set_text ts = Ret tokens \/ exists s, st_token_set s = ts /\ writable ratio s /\ stats_text ratio s = Ret tokens) ->
  forall name text, ~ converts U script threads ratio reads raw processed tokens name text.
Proof. intros. eapply convert_bits_fails; eassumption. Qed.

Example C58_refuted_hypotheses_met : exists ts tokens, shaped ts [] /\ ts_type ts = Bits4 /\
  (exists tk, tokenizer_new ts = Ret tk) /\ ~ In (Str [x61]) (TokenSetModel.tokens ts) /\ set_text ts = Ret tokens.
Proof.
  pose proof (shaped_new_bits4 Raw true) as S.
  assert (Tk : exists tk, tokenizer_new (new_bits4 Raw true) = Ret tk).
  { apply C01_tokenizer_exists_iff_usable. rewrite new_bits4_eq. apply usable_bits_set. }
  assert (Ty : ts_type (new_bits4 Raw true) = Bits4) by (rewrite new_bits4_eq; reflexivity).
  assert (NT : ~ In (Str [x61]) (TokenSetModel.tokens (new_bits4 Raw true))).
  { rewrite new_bits4_eq, <- in_str_tokens, str_tokens_bits_set. intros []. }
  revert S Tk Ty NT. generalize (new_bits4 Raw true). intros ts S Tk Ty NT.
  destruct (to_json_fields ts [] S) as (js & _ & E). exists ts. unfold set_text. rewrite E. cbn [bind]. eauto 10.
Qed.

(** True for bytes and byteshuff sets without the paragraph flag whose
    sequences have at least two tokens (all files the program writes load
    as such): the file written holds the set that was read, and converting it
    again, with the same data, writes the same file. *)
Theorem C58_convert_keeps_set_partial : forall U script threads ratio reads raw processed tokens name text ts,
  1 <= threads -> read_token_set tokens = Ret ts -> split_paragraphs ts = false ->
  (ts_type ts = Bytes \/ ts_type ts = BytesHuff) ->
  (forall q, In q (sequences ts) -> 1 < length (seq_tokens q)) ->
  (forall data samples s, maybe_process U script raw processed (ts_processing ts) = Ret data -> full_samples reads data = Ret samples ->
     par_result ts threads (full_size data) samples (Some (length raw)) s -> writable ratio s) ->
  converts U script threads ratio reads raw processed tokens name text ->
  read_token_set text = Ret ts /\ converts U script threads ratio reads raw processed text name text.
Proof. intros. eapply convert_keeps; eassumption. Qed.

(** For any set: the file is named after the set, the data is that of the
    processing of the set, and the statistics in the file are the size of the original data, the size of the tokenized data and the least
    number of tokens for the pieces it is cut into. *)
Theorem C62_statistics_in_file : forall U script threads ratio reads raw processed tokens name text,
  1 <= threads -> table_ok U -> converts U script threads ratio reads raw processed tokens name text ->
  exists ts data samples N, read_token_set tokens = Ret ts /\ name = file_name ts /\
  data_for U script raw processed (ts_processing ts) data /\
  full_samples reads data = Ret samples /\ min_total ts samples N /\
  ((forall pos, read_ok data (N.to_nat large) pos (reads pos)) -> concat samples = data /\
   ((forall a b, number_text (ratio a b)) -> Forall (fun k => (N.of_nat k < 2 ^ 64)%N) [length raw; length data; ntokens ts; N] ->
    exists v, parse_json text = Some v /\
      jindex v (lit "stats") = stats_json ratio (length raw) (length data) (ntokens ts) N)).
Proof.
  intros U script threads ratio reads raw processed tokens name text Ht Hok H.
  destruct (converts_facts _ _ _ _ _ Ht _ _ _ _ _ H) as (ts & data & samples & s & E1 & E2 & E3 & E4 & E5 & E6 & E7 & E8 & E9 & E10 & E11 & E12).
  exists ts, data, samples, (total_tokens s). split; [exact E1|]. split; [exact E6|].
  split; [apply maybe_process_data; assumption|]. split; [exact E3|].
  split; [exact E12|]. intros Hreads.
  assert (C : concat samples = data).
  { destruct (C28_file_read_exactly_once reads data (N.to_nat large) (S (length data))) as [Hp|(l & El & C & _)].
    - unfold large. lia.
    - exact Hreads.
    - lia.
    - unfold full_samples in E3. congruence.
    - unfold full_samples in E3. rewrite E3 in El. apply ret_inj in El. subst l. exact C. }
  split; [exact C|]. intros Hratio Hb. rewrite C in E11.
  inversion Hb as [|? ? B1 Hb1]; subst. inversion Hb1 as [|? ? B2 Hb2]; subst. inversion Hb2 as [|? ? B3 Hb3]; subst.
  inversion Hb3 as [|? ? B4 _]; subst.
  destruct (stats_in_file ratio s text (length raw)) as (v & Ev & Es); [|exact E5|exact E10|].
  - split; auto.
    + rewrite E11. exact B2.
    + intros k Ek. rewrite E10 in Ek. injection Ek as <-. exact B1.
  - exists v. split; [exact Ev|]. rewrite Es, E11. reflexivity.
Qed.
