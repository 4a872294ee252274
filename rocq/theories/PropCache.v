(** * Property C15: the statistics cache is transparent. *)
From Verif Require Import Base BaseLemmas TokenSetModel TokenizerModel TokSpec TokenizerProof1
  TokenSetProof TokenSetProof2 PropTokenizer StatsAlgebra BatchModel PropBatch Utf8 JsonModel JsonProof PropJson Shaped CacheModel.

Definition requested (r : request) : tokenset := match r with WithPairs ts | NoPairs ts => ts end.

(** The answer the request deserves: tokenize the sorted token set from scratch,
    sequentially; [get_stats] leaves out the pair counts. *)
Definition fresh_answer (samples : list bstr) (init : option nat) (r : request) (a : stats) : Prop :=
  exists ts' s, ts_sort (requested r) = Ret ts' /\ tokenize_file_sync ts' samples init = Ret s /\
    a = match r with WithPairs _ => s | NoPairs _ => without_pairs s end.

Section Transparent.
Variables (n : nat) (total : N) (samples : list bstr) (init : option nat).
Hypothesis Hn : 1 <= n.

(** Every entry is the result for some well-shaped sorted set with that key. *)
Definition cache_ok (c : smap stats) : Prop := forall k a, sget c k = Some a ->
  exists ts ss s, shaped ts ss /\ get_key ts = Ret k /\
    tokenize_file_sync ts samples init = Ret s /\ a = without_pairs s.

Lemma cache_ok_insert c k ts ss s : cache_ok c -> shaped ts ss -> get_key ts = Ret k ->
  tokenize_file_sync ts samples init = Ret s -> cache_ok (sinsert c k (without_pairs s)).
Proof.
  intros Hc S K T k' a. rewrite sget_sinsert. destruct (bstr_eqb_spec k' k) as [->|]; [|apply Hc].
  intros E; injection E as <-. exists ts, ss, s. auto.
Qed.

Lemma call_ok c r a c' : cache_ok c -> (exists ss, shaped (requested r) ss) ->
  call n total samples init c r a c' -> cache_ok c' /\ fresh_answer samples init r a.
Proof.
  intros Hc (ss & S) H. unfold fresh_answer.
  destruct H as [c ts ts' s k Hs Hp Hk|c ts ts' s k Hs Hk Hg|c ts ts' s k Hs Hk Hg Hp]; cbn [requested] in *;
    destruct (shaped_sort ts ss ts' S Hs) as (ss' & S' & _).
  - apply C11_result_is_unique in Hp; [|apply (sh_range _ _ S')|exact Hn].
    split; [eapply cache_ok_insert; eauto|]. exists ts', s. auto.
  - split; [exact Hc|]. destruct (Hc k s Hg) as (t0 & ss0 & s0 & S0 & K0 & T0 & ->).
    assert (t0 = ts') by (eapply C24_key_identifies; eauto). subst t0. exists ts', s0. auto.
  - apply C11_result_is_unique in Hp; [|apply (sh_range _ _ S')|exact Hn].
    split; [eapply cache_ok_insert; eauto|]. exists ts', s. auto.
Qed.
End Transparent.

(** ** C15 *)
Theorem C15_cache_is_transparent : forall n total samples init h c,
  1 <= n -> history n total samples init h c ->
  (forall r a, In (r, a) h -> exists ss, shaped (requested r) ss) ->
  forall r a, In (r, a) h -> fresh_answer samples init r a.
Proof.
  intros n total samples init h c Hn H Hs.
  assert (G : cache_ok samples init c /\ forall r a, In (r, a) h -> fresh_answer samples init r a).
  { revert Hs. induction H as [|h c r s c' _ IH Hcall]; intros Hs.
    - split; [intros k a E; discriminate|intros r a []].
    - destruct IH as (Hc & Ha). { intros r0 a0 H0. apply (Hs r0 a0), in_or_app; auto. }
      destruct (call_ok n total samples init Hn c r s c' Hc) as (Hc' & Hf); [|exact Hcall|].
      + apply (Hs r s), in_or_app; right; left; reflexivity.
      + split; [exact Hc'|]. intros r0 a0 H0. apply in_app_iff in H0 as [H0|[H0|[]]]; [auto|].
        injection H0 as <- <-. exact Hf. }
  apply G.
Qed.

(** Every request for an accepted token set gets an answer, whatever happened
    before (the history itself need not be well shaped). *)
Theorem C15_cache_answers : forall n total samples init h c r ss tk,
  1 <= n -> ~ In [] samples -> history n total samples init h c ->
  shaped (requested r) ss -> tokenizer_new (requested r) = Ret tk ->
  exists a c', call n total samples init c r a c' /\ history n total samples init (h ++ [(r, a)]) c'.
Proof.
  intros n total samples init h c r ss tk Hn Hne Hh S Htk.
  destruct (ts_sort_total (requested r) (sh_range _ _ S)) as (ts' & Hs).
  destruct (shaped_sort _ _ _ S Hs) as (ss' & S' & _).
  destruct (C24_key_exists ts' ss' S') as (k & Hk).
  assert (Htk' : exists tk', tokenizer_new ts' = Ret tk').
  { apply C01_tokenizer_exists_iff_usable.
    apply (usable_perm ts' (requested r)); [apply sv_strings, ts_sort_sorted; exact Hs|].
    apply C01_tokenizer_exists_iff_usable; eauto. }
  destruct Htk' as (tk' & Htk').
  assert (P : exists s, par_result ts' n total samples init s).
  { destruct (N.lt_ge_cases total small_size) as [Hl|Hl].
    - eexists. apply pr_small; [exact Hl|]. apply (sync_eq ts' tk' Htk' (sh_range _ _ S')).
    - destruct (C12_some_execution_returns ts' tk' init n samples Htk' (sh_range _ _ S') Hn Hne) as (c0 & st & H1 & H2).
      exists st. eapply pr_large; eauto. }
  destruct P as (s & P).
  assert (X : exists a c', call n total samples init c r a c').
  { destruct r as [ts|ts]; cbn [requested] in *.
    - do 2 eexists. eapply call_with_pairs; eauto.
    - destruct (sget c k) as [a|] eqn:Eg.
      + do 2 eexists. eapply call_hit; eauto.
      + do 2 eexists. eapply call_miss; eauto. }
  destruct X as (a & c' & X). exists a, c'. split; [exact X|]. econstructor; eauto.
Qed.

(** The running example set is well shaped ... *)
Lemma ex_set_shaped : exists ss, shaped ex_set ss.
Proof.
  unfold ex_set. pose proof (shaped_new_bits4 Raw true) as S. revert S.
  generalize (new_bits4 Raw true). intros ts S.
  eexists. apply shaped_add; [apply shaped_add; [apply shaped_add; [exact S|..]|..]|..];
    cbn; intuition discriminate.
Qed.

(** ... and a history with a miss, an overwriting request and a hit exists. *)
Example C15_example : exists a1 a2 a3 c,
  history 2 10 [[x61; x62]; [x63]] (Some 3)
    [(NoPairs ex_set, a1); (WithPairs ex_set, a2); (NoPairs ex_set, a3)] c.
Proof.
  destruct ex_set_shaped as (ss & S). destruct C01_example as (tk & Htk).
  assert (Hn : 1 <= 2) by lia. assert (Hne : ~ In [] [[x61; x62]; [x63]]) by (cbn; intuition discriminate).
  destruct (C15_cache_answers 2 10 _ (Some 3) [] [] (NoPairs ex_set) ss tk Hn Hne (h_new _ _ _ _) S Htk)
    as (a1 & c1 & _ & H1).
  destruct (C15_cache_answers 2 10 _ (Some 3) _ _ (WithPairs ex_set) ss tk Hn Hne H1 S Htk) as (a2 & c2 & _ & H2).
  destruct (C15_cache_answers 2 10 _ (Some 3) _ _ (NoPairs ex_set) ss tk Hn Hne H2 S Htk) as (a3 & c3 & _ & H3).
  exists a1, a2, a3, c3. exact H3.
Qed.
