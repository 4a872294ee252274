(** * C89: the statistics in the file that an optimization writes. *)
From Coq Require Import String.
From Verif Require Import PropProcessing.
From Verif Require Import Base BaseLemmas Utf8 TokenSetModel TokenizerModel TokSpec SortLemmas
  TokenizerProof1 TokenSetProof TokenizerTheory TokenSetProof2 PropTokenizer StatsAlgebra BatchModel PropBatch
  JsonModel JsonText JsonProof PropJson Shaped SamplerModel PropSampler PropSamplerExact ProcessingModel CacheModel PropCache OptBytesModel OptimizeModel
  OptimizeProof1 OptimizeProof2 OptimizeProof3 OptimizeProof4 OptimizeProof5 OptimizeProof6 OptimizeProof7 OptimizeProof8
  PropOptimize PropDeterminism PropFixpoint MainModel PropMain CommandsModel PropFiles PropCommands PropOptFiles PropIncreasing.
Local Open Scope list_scope.
Local Notation length := List.length.

(** ** What the search returns are the statistics of its samples *)
Lemma search_answer samples init order clock fuel n p t pre s :
  outcome_of samples init (optimize_tokenset order clock fuel n p t pre) = Ret s ->
  exists ts s0, tokenize_file_sync ts samples init = Ret s0 /\ s = without_pairs s0.
Proof.
  unfold optimize_tokenset. intros E. rewrite outcome_bind in E. apply bind_ret in E as (ts0 & _ & E).
  unfold optimize_impl in E. rewrite outcome_bind in E. apply bind_ret in E as (s0 & _ & E).
  rewrite outcome_bind in E. apply bind_ret in E as (last & _ & E). rewrite outcome_bind in E. apply bind_ret in E as (ls & _ & E).
  unfold get_stats in E. cbn [outcome_of pret] in E.
  destruct (answer samples init (NoPairs ls)) as [a| |] eqn:Ea; try discriminate. apply ret_inj in E. subst a.
  unfold answer in Ea. apply bind_ret in Ea as (ts' & _ & Ea). apply bind_ret in Ea as (s1 & E1 & Ea). apply ret_inj in Ea. subst s.
  exists ts', s1. auto.
Qed.

Lemma sync_facts ts (samples : list bstr) init s : seqs_in_range ts -> tokenize_file_sync ts samples init = Ret s ->
  st_token_set s = ts /\ initial_size s = init /\ scanned_bytes s = length (concat samples) /\ min_total ts samples (total_tokens s).
Proof.
  intros Hr E. destruct (tokenizer_new ts) as [tk| |] eqn:Etk; [|unfold tokenize_file_sync in E; rewrite Etk in E; discriminate..].
  rewrite (sync_eq _ _ Etk Hr) in E. apply ret_inj in E. subst s. apply tally_facts; assumption.
Qed.

(** The sizes that go into the file as numbers. *)
Definition fits (l : list nat) : Prop := Forall (fun k => (N.of_nat k < 2 ^ 64)%N) l.

Lemma stats_of_file ratio s text raw (samples : list bstr) : stats_text ratio s = Ret text -> initial_size s = Some raw ->
  scanned_bytes s = length (concat samples) -> (forall a b, number_text (ratio a b)) ->
  fits [raw; length (concat samples); ntokens (st_token_set s); total_tokens s] ->
  exists v, parse_json text = Some v /\
    jindex v (lit "stats") = stats_json ratio raw (length (concat samples)) (ntokens (st_token_set s)) (total_tokens s).
Proof.
  intros Et Ei Es Hratio Hb.
  inversion Hb as [|? ? B1 Hb1]; subst. inversion Hb1 as [|? ? B2 Hb2]; subst. inversion Hb2 as [|? ? B3 Hb3]; subst.
  inversion Hb3 as [|? ? B4 _]; subst.
  destruct (stats_in_file ratio s text raw) as (v & Ev & Ej); [|exact Et|exact Ei|].
  - split; auto.
    + rewrite Es. exact B2.
    + intros k Ek. rewrite Ei in Ek. injection Ek as <-. exact B1.
  - exists v. split; [exact Ev|]. rewrite Ej, Es. reflexivity.
Qed.

(** ** The text that is scanned *)

(** Data of less than 16 GB is cut in memory every 2^20 bytes or before: where a cut
    is within a character the text grows.  The scanned text is the data itself if there is
    nothing to cut, if there are only one-byte characters, or if the raw data is larger. *)
Definition kept_whole (raw data : bstr) : Prop :=
  (2 ^ 34 <= N.of_nat (length raw))%N \/ Forall (fun b => b2n b < 128) data \/
  utf8 data /\ (N.of_nat (length data) <= 2 ^ 20)%N.

Lemma scanned_text reads raw data (samples : list bstr) : (forall pos, read_ok data (N.to_nat large) pos (reads pos)) ->
  optimize_samples reads raw data = Ret samples ->
  length data <= length (concat samples) /\ (kept_whole raw data -> concat samples = data).
Proof.
  intros Hr. unfold optimize_samples. destruct (N.ltb_spec (N.of_nat (length raw)) two34) as [Hs|Hs]; intros H.
  - assert (Hm : 0 < N.to_nat mega) by (unfold mega; lia).
    destruct (C27_text_kept_iff data (N.to_nat mega) (S (length data)) Hm (Nat.lt_succ_diag_r _)) as (sl & l & _ & _ & El & Hle & _).
    rewrite H in El. apply ret_inj in El. subst l. split; [exact Hle|].
    intros K. destruct (C27_single_chunk_or_ascii data (N.to_nat mega) (S (length data)) Hm (Nat.lt_succ_diag_r _)) as (l & El & Ec).
    + destruct K as [K|[K|(K1 & K2)]].
      * exfalso. change (2 ^ 34)%N with two34 in K. lia.
      * right. exact K.
      * left. split; [exact K1|]. change (2 ^ 20)%N with mega in K2. lia.
    + rewrite H in El. apply ret_inj in El. subst l. exact Ec.
  - unfold full_samples in H.
    destruct (C28_file_read_exactly_once reads data (N.to_nat large) (S (length data))) as [Hp|(l & El & C & _)].
    + unfold large. lia.
    + exact Hr.
    + lia.
    + congruence.
    + rewrite H in El. apply ret_inj in El. subst l. rewrite C. split; [lia|reflexivity].
Qed.

(** ** C89 *)

(** After a normal end of a supported run, the file of the result holds the statistics of the
    set in it: the size of the original data, the size of the text scanned, the number of its
    tokens and the least number of tokens for the pieces of the text. *)
Theorem C89_statistics_of_result :
  forall U script threads ratio reads order clock rounds n p t raw processed input data m s,
  table_ok U -> run_setup threads rounds n p t order reads data input -> maybe_process U script raw processed p = Ret data ->
  optimize_run U script threads reads order clock rounds n p t raw processed input m -> returned m s ->
  data_for U script raw processed p data /\
  exists (samples : list bstr) N ws, optimize_samples reads raw data = Ret samples /\ min_total (st_token_set s) samples N /\
    length data <= length (concat samples) /\ (kept_whole raw data -> concat samples = data) /\
    written ratio m = Ret ws /\
    ((forall a b, number_text (ratio a b)) -> fits [length raw; length (concat samples); ntokens (st_token_set s); N] ->
     forall d, exists text v, put_files d ws (file_name (st_token_set s)) = Some text /\ parse_json text = Some v /\
       jindex v (lit "stats") = stats_json ratio (length raw) (length (concat samples)) (ntokens (st_token_set s)) N).
Proof.
  intros U script threads ratio reads order clock rounds n p t raw processed input data m s Hok Hs Ed Hm Hret.
  split; [apply maybe_process_data; assumption|].
  destruct (C59_only_requested_file_partial U script threads ratio reads order clock rounds n p t raw processed input data m Hs Ed Hm) as (ws & Ew & _ & Hfile).
  destruct (run_facts _ _ _ _ _ _ _ _ _ _ _ _ _ _ _ Hs Ed Hm) as (pre & samples & Ei & Gp & Es & Hne & Hr & Ho).
  pose proof (rs_threads _ _ _ _ _ _ _ _ _ Hs) as Ht. pose proof (rs_order _ _ _ _ _ _ _ _ _ Hs) as Hsh. pose proof (rs_target _ _ _ _ _ _ _ _ _ Hs) as Hsup.
  destruct (C44_result_within_budget _ _ _ _ _ _ _ _ _ _ _ _ Ht Hne Hsh Hsup Gp Hr Ho) as (_ & G2).
  destruct (G2 s Hret) as ((_ & (ss & S) & _) & _ & Hmin).
  destruct (returned_outcome _ _ _ _ _ _ _ _ _ _ _ _ _ Ht Hsh Hsup Gp Hr Ho Hret) as (E1 & _).
  destruct (search_answer _ _ _ _ _ _ _ _ _ _ E1) as (ts & s0 & E0 & E2).
  assert (Ets : st_token_set s = ts) by (rewrite E2; cbn [without_pairs st_token_set]; eapply sync_set, E0).
  destruct (sync_facts ts samples (Some (length raw)) s0) as (_ & F2 & F3 & _); [rewrite <- Ets; exact (sh_range _ _ S)|exact E0|].
  exists samples, (total_tokens s), ws.
  destruct (scanned_text _ _ _ _ (rs_reads _ _ _ _ _ _ _ _ _ Hs) Es) as (K1 & K2).
  split; [exact Es|]. split; [exact Hmin|]. split; [exact K1|]. split; [exact K2|]. split; [exact Ew|].
  intros Hratio Hb d. destruct (Hfile d s Hret) as (text & Et & Ep).
  destruct (stats_of_file ratio s text (length raw) samples) as (v & Ev & Ej).
  - exact Et.
  - rewrite E2. exact F2.
  - rewrite E2. exact F3.
  - exact Hratio.
  - exact Hb.
  - exists text, v. auto.
Qed.

(** The same with --min-data-size: the statistics are always those of the whole data. *)
Theorem C89_statistics_with_increasing_data :
  forall U script threads ratio reads order clock near below rounds n p t raw processed input min data f saved,
  table_ok U -> run_setup threads rounds n p t order reads data input -> maybe_process U script raw processed p = Ret data ->
  optimize_increasing U script threads reads order clock near below rounds n p t raw processed input min (Some f) saved ->
  data_for U script raw processed p data /\
  exists (samples : list bstr) N ws, full_samples reads data = Ret samples /\ concat samples = data /\ min_total (st_token_set f) samples N /\
    increasing_written ratio (Some f) saved = Ret ws /\
    ((forall a b, number_text (ratio a b)) -> fits [length raw; length data; ntokens (st_token_set f); N] ->
     forall d, exists text v, put_files d ws (file_name (st_token_set f)) = Some text /\ parse_json text = Some v /\
       jindex v (lit "stats") = stats_json ratio (length raw) (length data) (ntokens (st_token_set f)) N).
Proof.
  intros U script threads ratio reads order clock near below rounds n p t raw processed input min data f saved Hok Hs Ed Hm.
  split; [apply maybe_process_data; assumption|].
  destruct (C70_files_with_increasing_data_partial U script threads ratio reads order clock near below rounds n p t raw processed input min data (Some f) saved Hs Ed Hm) as (ws & Ew & _ & Hfile).
  destruct (Hfile (fun _ => None) f eq_refl) as ((size & pre & total & sm & m & s & full & _ & _ & _ & _ & Gs & _ & Ef & Esync) & _).
  destruct Gs as (_ & (ss & S) & _). pose proof (sync_set _ _ _ _ Esync) as Ets.
  destruct (sync_facts (st_token_set s) full (Some (length raw)) f (sh_range _ _ S) Esync) as (_ & F2 & F3 & F4).
  assert (C : concat full = data).
  { destruct (C28_file_read_exactly_once reads data (N.to_nat large) (Datatypes.S (length data))) as [Hp|(l & El & C & _)].
    - unfold large. lia.
    - exact (rs_reads _ _ _ _ _ _ _ _ _ Hs).
    - lia.
    - unfold full_samples in Ef. congruence.
    - unfold full_samples in Ef. rewrite Ef in El. apply ret_inj in El. subst l. exact C. }
  exists full, (total_tokens f), ws. split; [exact Ef|]. split; [exact C|]. split; [rewrite Ets; exact F4|]. split; [exact Ew|].
  intros Hratio Hb d. destruct (Hfile d f eq_refl) as (_ & text & Et & Ep).
  destruct (stats_of_file ratio f text (length raw) full) as (v & Ev & Ej).
  - exact Et.
  - exact F2.
  - exact F3.
  - exact Hratio.
  - rewrite C. exact Hb.
  - rewrite C in Ej. exists text, v. auto.
Qed.

(** The hypotheses are met: [C59_hypotheses_met] and [C70_hypotheses_met]; there are tables as required. *)
