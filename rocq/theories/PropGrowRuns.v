(** * Property C120: growing a token set over several runs never makes the data longer. *)
From Coq Require Import String Relations.
From Verif Require Import PropProcessing.
From Verif Require Import Base BaseLemmas Utf8 TokenSetModel TokenizerModel TokSpec SortLemmas
  TokenizerProof1 TokenSetProof TokenizerTheory TokenSetProof2 PropTokenizer StatsAlgebra BatchModel PropBatch
  JsonModel JsonText JsonProof PropJson Shaped SamplerModel PropSampler PropSamplerExact ProcessingModel CacheModel PropCache OptBytesModel OptimizeModel
  OptimizeProof1 OptimizeProof2 OptimizeProof3 OptimizeProof4 OptimizeProof5 OptimizeProof6 OptimizeProof7 OptimizeProof8
  PropOptimize PropDeterminism PropFixpoint MainModel PropMain CommandsModel PropFiles PropCommands PropOptFiles.
Local Open Scope list_scope.
Local Notation length := List.length.

Section Runs.
Variables (U : unicode) (script : list response) (ratio : nat -> nat -> bstr) (reads : nat -> nat) (raw : bstr) (processed : option bstr).
Variables (p : processing) (t : token_type) (data : bstr).

(** The data and what is read of it are the same in all runs; the number of threads, the
    schedule, the times of saves and the order of ties are not.  [rounds]: the fuel of the model. *)
Definition run_for (n : nat) (input : option bstr) (s : stats) : Prop :=
  exists threads rounds order clock m, 1 <= threads /\ shuffles order /\ supported t n /\
    (let b := 258 * (3 * length data) in S (n * S b + b) <= rounds) /\
    optimize_run U script threads reads order clock rounds n p t raw processed input m /\ returned m s.

(** Results: of a first run, from scratch or from a set the program could have made, and of a
    run with a budget that is not smaller, from the file of a result that can be loaded: for bits
    sets all bytes must be tokens (C63), for byteshuff no byte may fit in (C45). *)
Inductive result_chain : list (nat * stats) -> Prop :=
| rc_first n input s :
    (forall ts, input_set input = Ret (Some ts) -> good_start n p t (Some ts)) ->
    run_for n input s -> result_chain [(n, s)]
| rc_next n s n' s' l text :
    result_chain ((n, s) :: l) -> n <= n' -> writable ratio s -> stats_text ratio s = Ret text ->
    t = Bytes \/ (t = BytesHuff /\ no_room n' (st_token_set s)) \/ (t <> BytesHuff /\ forall b : byte, In (Str [b]) (TokenSetModel.tokens (st_token_set s))) ->
    run_for n' (Some text) s' -> result_chain ((n', s') :: (n, s) :: l).

Hypothesis Hreads : forall pos, read_ok data (N.to_nat large) pos (reads pos).
Hypothesis Hdata : maybe_process U script raw processed p = Ret data.

(** What is known of a result. *)
Definition good_stats (n : nat) (s : stats) : Prop :=
  good_result n p t (st_token_set s) /\ good_start n p t (Some (st_token_set s)) /\
  exists samples, optimize_samples reads raw data = Ret samples /\ min_total (st_token_set s) samples (total_tokens s).

Lemma run_good n input s : (forall ts, input_set input = Ret (Some ts) -> good_start n p t (Some ts)) -> run_for n input s -> good_stats n s.
Proof.
  intros Hi (threads & rounds & order & clock & m & Ht & Ho & Hsup & Hr & Hm & R).
  assert (Hs : run_setup threads rounds n p t order reads data input) by (split; assumption).
  destruct (run_facts _ _ _ _ _ _ _ _ _ _ _ _ _ _ _ Hs Hdata Hm) as (pre & samples & _ & Gp & Es & Hne & Hb & M).
  destruct (C44_result_within_budget _ _ _ _ _ _ _ _ _ _ _ _ Ht Hne Ho Hsup Gp Hb M) as (_ & G2).
  destruct (G2 s R) as (A & B & C). split; [exact A|]. split; [exact B|]. exists samples. split; assumption.
Qed.

Lemma grown_start n n' ts : n <= n' -> good_start n p t (Some ts) -> good_start n' p t (Some ts).
Proof. intros L (sp & V & H). exists sp. split; [exact V|lia]. Qed.

Definition loadable n' (s : stats) : Prop :=
  t = Bytes \/ (t = BytesHuff /\ no_room n' (st_token_set s)) \/ (t <> BytesHuff /\ forall b : byte, In (Str [b]) (TokenSetModel.tokens (st_token_set s))).

Lemma loadable_simple n' s : loadable n' s -> t = Bytes \/ t = BytesHuff \/ forall b : byte, In (Str [b]) (TokenSetModel.tokens (st_token_set s)).
Proof. intros [H|[(H & _)|H]]; [tauto|tauto|right; right; intros b; apply H]. Qed.

(** The set in the file of a result, loaded again. *)
Lemma loaded n n' s text : n <= n' -> good_stats n s -> writable ratio s -> stats_text ratio s = Ret text -> loadable n' s ->
  exists ts, input_set (Some text) = Ret (Some ts) /\ good_start n' p t (Some ts) /\
    (t <> BytesHuff \/ no_room n' ts) /\
    forall samples N, min_total (st_token_set s) samples N -> min_total ts samples N.
Proof.
  intros L ((_ & (ss & S) & _ & Ty & _) & Gs & _) Hw Et Hl.
  destruct (C56_files_read_back_partial ratio s ss S Hw) as (t1 & t2 & _ & E2 & _ & R).
  rewrite Et in E2. apply ret_inj in E2. subst t2. pose proof (loadable_simple _ _ Hl) as Hl'.
  exists (reloaded (st_token_set s) ss). split; [unfold input_set; rewrite R; reflexivity|].
  split; [apply (grown_start n n' _ L), reloaded_start; assumption|]. split.
  - destruct (is_huff_dec t) as [Eh|Eh]; [|left; exact Eh]. right. destruct Hl as [H|[(_ & H)|H]]; [congruence| |destruct H; contradiction].
    rewrite (reloaded_flag t _ ss S Ty Hl'). exact H.
  - intros samples N HN. exact (proj1 (reloaded_total t _ ss samples N S Ty Hl') HN).
Qed.

Lemma chain_good l : result_chain l -> forall n s, In (n, s) l -> good_stats n s.
Proof.
  induction 1 as [n input s Hi R|n s n' s' l text C IH L Hw Et Hl R]; intros k a Ha.
  - destruct Ha as [[= <- <-]|[]]. eapply run_good; eauto.
  - destruct Ha as [[= <- <-]|Ha]; [|apply IH, Ha].
    destruct (loaded n n' s text L (IH n s (or_introl eq_refl)) Hw Et Hl) as (ts & I & G & _).
    apply (run_good n' (Some text) s'); [|exact R]. intros x Hx. rewrite I in Hx. apply ret_inj in Hx. injection Hx as <-. exact G.
Qed.

Lemma link_total n s n' s' text : good_stats n s -> n <= n' -> writable ratio s -> stats_text ratio s = Ret text ->
  loadable n' s -> run_for n' (Some text) s' -> total_tokens s' <= total_tokens s.
Proof.
  intros Gs L Hw Et Hl (threads & rounds & order & clock & m & Ht & Ho & Hsup & Hr & Hm & R).
  destruct (loaded n n' s text L Gs Hw Et Hl) as (ts & I & G & Rm & T).
  assert (Hs : run_setup threads rounds n' p t order reads data (Some text)).
  { split; try assumption. intros x Hx. rewrite I in Hx. apply ret_inj in Hx. injection Hx as <-. exact G. }
  destruct (run_facts _ _ _ _ _ _ _ _ _ _ _ _ _ _ _ Hs Hdata Hm) as (pre & samples & Ei & Gp & Es & Hne & Hb & M).
  rewrite I in Ei. apply ret_inj in Ei. subst pre.
  destruct Gs as (_ & _ & samples' & Es' & HN). rewrite Es in Es'. apply ret_inj in Es'. subst samples'.
  destruct (C44_result_within_budget _ _ _ _ _ _ _ _ _ _ _ _ Ht Hne Ho Hsup Gp Hb M) as (_ & G2). destruct (G2 s' R) as (_ & _ & MT).
  destruct (C45_never_longer threads (full_size data) samples (Some (length raw)) order clock n' p t _ rounds ts m Ht Hne Ho Hsup Gp Hb eq_refl) as (_ & K & _); [tauto|exact M|].
  exact (Forall_inv (K s' R) _ _ (T _ _ HN) MT).
Qed.

Lemma chain_sorted l : result_chain l -> Sorted (fun a b => fst b <= fst a /\ total_tokens (snd a) <= total_tokens (snd b)) l.
Proof.
  induction 1 as [n input s Hi R|n s n' s' l text C IH L Hw Et Hl R]; [repeat constructor|].
  constructor; [exact IH|]. constructor. cbn [fst snd]. split; [exact L|].
  eapply link_total; eauto. exact (chain_good _ C n s (or_introl eq_refl)).
Qed.
End Runs.

(** ** C120 *)

(** In a chain of runs of any length, latest first, each from the file of the result before it and
    with at least its budget, all results are within their budgets, and no result needs more tokens for
    the data than any earlier one; and a further run returns. *)
Theorem C120_growing_never_longer : forall U script ratio reads raw processed p t data l,
  (forall pos, read_ok data (N.to_nat large) pos (reads pos)) -> maybe_process U script raw processed p = Ret data ->
  result_chain U script ratio reads raw processed p t data l ->
  (forall n s, In (n, s) l -> good_result n p t (st_token_set s) /\
     exists samples, optimize_samples reads raw data = Ret samples /\ min_total (st_token_set s) samples (total_tokens s)) /\
  StronglySorted (fun a b => fst b <= fst a /\ total_tokens (snd a) <= total_tokens (snd b)) l.
Proof.
  intros U script ratio reads raw processed p t data l Hr Hd C. split.
  - intros n s Hi. destruct (chain_good _ _ _ _ _ _ _ _ _ Hr Hd l C n s Hi) as (A & _ & B). split; assumption.
  - apply Sorted_StronglySorted; [intros a b c (A1 & A2) (B1 & B2); split; lia|].
    eapply chain_sorted; eassumption.
Qed.

(** The chain can be continued with any larger supported budget. *)
Theorem C120_chain_continues : forall U script ratio reads raw processed p t data n s l n' text,
  (forall pos, read_ok data (N.to_nat large) pos (reads pos)) -> maybe_process U script raw processed p = Ret data ->
  result_chain U script ratio reads raw processed p t data ((n, s) :: l) ->
  n <= n' -> supported t n' -> writable ratio s -> stats_text ratio s = Ret text ->
  t = Bytes \/ (t = BytesHuff /\ no_room n' (st_token_set s)) \/ (t <> BytesHuff /\ forall b : byte, In (Str [b]) (TokenSetModel.tokens (st_token_set s))) ->
  exists s', result_chain U script ratio reads raw processed p t data ((n', s') :: (n, s) :: l).
Proof.
  intros U script ratio reads raw processed p t data n s l n' text Hr Hd C L Hsup Hw Et Hl.
  pose proof (chain_good _ _ _ _ _ _ _ _ _ Hr Hd _ C n s (or_introl eq_refl)) as Gs.
  destruct (loaded ratio reads raw p t data n n' s text L Gs Hw Et Hl) as (ts & I & G & _).
  destruct Gs as (_ & _ & samples & Es & _).
  destruct (optimize_samples_ok _ _ _ _ Hr Es) as (Hne & Hlen).
  set (rounds := let b := 258 * (3 * length data) in S (n' * S b + b)).
  assert (Hrd : let b := 258 * (3 * length data) in S (n' * S b + b) <= rounds) by apply le_n.
  assert (Ho : shuffles (fun _ l => l)) by (intros m x; reflexivity).
  assert (Ht : 1 <= 1) by apply le_n.
  assert (Hb : round_bound samples n' <= rounds) by (revert Hlen; eapply bound_ok; eassumption).
  destruct (C43_optimization_never_panics_partial 1 (full_size data) samples (Some (length raw)) (fun _ l => l) (fun _ => true) n' p t _ rounds Ht Hne Ho Hsup G Hb) as ((m' & s' & M & Rt) & _).
  exists s'. eapply rc_next; [exact C|exact L|exact Hw|exact Et|exact Hl|].
  exists 1, rounds, (fun _ l => l), (fun _ => true), m'. split; [exact Ht|]. split; [exact Ho|]. split; [exact Hsup|]. split; [exact Hrd|].
  split; [econstructor; eauto|exact Rt].
Qed.

(** Two bytes of data: a run for 300 tokens, then one for 301 from its result. *)
Theorem C120_hypotheses_met : exists ratio s s',
  result_chain no_unicode [] ratio two_reads [x61; x62] None Raw Bytes [x61; x62] [(301, s'); (300, s)] /\
  (forall pos, read_ok [x61; x62] (N.to_nat large) pos (two_reads pos)) /\
  maybe_process no_unicode [] [x61; x62] None Raw = Ret [x61; x62].
Proof.
  destruct C63_hypotheses_met as (ratio & order & clock & rounds & input & m & s & _ & H1 & H2 & H3 & H4 & H5 & _).
  assert (Ed : maybe_process no_unicode [] [x61; x62] None Raw = Ret [x61; x62]) by reflexivity.
  assert (C : result_chain no_unicode [] ratio two_reads [x61; x62] None Raw Bytes [x61; x62] [(300, s)]).
  { apply (rc_first _ _ _ _ _ _ _ _ _ 300 input s); [exact (rs_input _ _ _ _ _ _ _ _ _ H1)|].
    exists 4, rounds, order, clock, m. destruct H1 as [A1 A2 A3 A4 A5 A6]. tauto. }
  destruct (chain_good _ _ _ _ _ _ _ _ _ (rs_reads _ _ _ _ _ _ _ _ _ H1) Ed _ C 300 s (or_introl eq_refl)) as ((_ & (ss & S) & _) & _).
  destruct (stats_text_total ratio s ss S) as (text & Et).
  destruct (C120_chain_continues no_unicode [] ratio two_reads [x61; x62] None Raw Bytes [x61; x62] 300 s [] 301 text
    (rs_reads _ _ _ _ _ _ _ _ _ H1) Ed C) as (s' & C').
  - apply Nat.leb_le. reflexivity.
  - split; [apply Nat.leb_le; reflexivity|exact I].
  - exact (H4 s H5).
  - exact Et.
  - left. reflexivity.
  - exists ratio, s, s'. split; [exact C'|]. split; [exact (rs_reads _ _ _ _ _ _ _ _ _ H1)|exact Ed].
Qed.
