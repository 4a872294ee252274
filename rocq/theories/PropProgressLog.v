(** * Property C118: the bytes per token that a search reports never fall.

    Whenever the search accepts a token set it prints a line with the bytes per token
    of its statistics (src/optimize.rs:189,208,239,262), and so it does for the initial
    set (lines 301-305). *)
From Coq Require Import Reals Lra ZArith.
From Verif Require Import Base BaseLemmas TokenSetModel TokenizerModel TokSpec SortLemmas TokenizerProof1 TokenizerProof2
  TokenizerTheory TokenSetProof TokenSetProof2 PropTokenizer PropTokenSet StatsAlgebra BatchModel PropBatch
  PropJson Shaped CacheModel PropCache OptBytesModel OptBytesProof OptBytesProof2
  OptBytesProof3 OptBytesProof4 PropOptBytes OptimizeModel OptimizeProof1 OptimizeProof2 OptimizeProof3 OptimizeProof4
  OptimizeProof5 OptimizeProof6 OptimizeProof7 OptimizeProof8 PropOptimize PropDeterminism PropFixpoint PropCommands PropRatio StopFloat.

(** The number in the line for a token set: [get_stats] of the set (src/stats2.rs:49-51,
    [scanned_bytes as f64 / total_tokens as f64]). *)
Definition logged (samples : list bstr) (init : option nat) (ts : tokenset) (x : R) : Prop :=
  exists s, fresh_answer samples init (NoPairs ts) s /\ x = f64_ratio (scanned_bytes s) (total_tokens s).

(** The number for [a] is at most that for [b]. *)
Definition not_above (samples : list bstr) (init : option nat) (a b : tokenset) : Prop :=
  forall x y, logged samples init a x -> logged samples init b y -> (x <= y)%R.
(** If the two sets have the same size, it is smaller. *)
Definition below_same_size (samples : list bstr) (init : option nat) (a b : tokenset) : Prop :=
  ntokens a = ntokens b -> forall x y, logged samples init a x -> logged samples init b y -> (x < y)%R.

Section Facts.
Variables (samples : list bstr) (init : option nat) (t : token_type) (p : processing) (sp : bool).

Lemma fresh_facts ts s : visited t p sp ts -> fresh_answer samples init (NoPairs ts) s ->
  min_total ts samples (total_tokens s) /\ scanned_bytes s = length (concat samples).
Proof.
  intros V F. destruct (fresh_answered samples init t p sp (NoPairs ts) s V F) as (A & _). cbn [requested] in A.
  split; [apply total_for_min, (an_total A)|].
  destruct F as (ts3 & s3 & E3 & E4 & ->). cbn [requested] in E3. destruct (visited_sort _ _ _ _ _ V E3) as (V3 & _).
  destruct (proj2 (C01_tokenizer_exists_iff_usable ts3) (vi_usable _ _ _ _ V3)) as (tk3 & Htk3).
  rewrite (sync_eq ts3 tk3 Htk3 (visited_range _ _ _ _ V3)) in E4. apply ret_inj in E4.
  destruct (tally_facts ts3 tk3 init samples Htk3 (visited_range _ _ _ _ V3)) as (_ & _ & T3 & _). rewrite E4 in T3. exact T3.
Qed.

(** The number is that of the best encoding of the data. *)
Lemma logged_is ts x : visited t p sp ts -> logged samples init ts x ->
  exists N, min_total ts samples N /\ x = f64_ratio (length (concat samples)) N.
Proof. intros V (s & F & ->). destruct (fresh_facts ts s V F) as (M & ->). eauto. Qed.

Lemma logged_exists ts : visited t p sp ts -> exists x, logged samples init ts x.
Proof.
  intros V. destruct (answer_total samples init (NoPairs ts)) as (a & Ea).
  - apply (visited_askable t p sp). exact V.
  - exists (f64_ratio (scanned_bytes a) (total_tokens a)), a. split; [apply fresh_answer_iff; exact Ea|reflexivity].
Qed.
End Facts.

Lemma initial_visited samples init n p t pre ts0 : supported t n -> good_start n p t pre -> initial samples init n p t pre ts0 ->
  exists sp, visited t p sp ts0.
Proof.
  intros Hs Hp H. destruct pre as [ts|].
  - cbn in H, Hp. subst ts0. destruct Hp as (sp & V & _). eauto.
  - destruct t; [exists true; cbn [initial] in H; apply (first_visited _ _ _ H)..|].
    exists true. destruct (supported_bounds _ _ Hs) as (Hlo & _). destruct (initial_huff _ _ _ _ _ Hlo H) as ((V & _) & _). exact V.
Qed.

Lemma sorted_in_impl {A} (R R' : A -> A -> Prop) l : (forall a b, In a l -> In b l -> R a b -> R' a b) -> StronglySorted R l -> StronglySorted R' l.
Proof.
  intros H S. induction S as [|a l S IH Ha]; constructor.
  - apply IH. intros x y Hx Hy. apply H; right; assumption.
  - rewrite Forall_forall in *. intros b Hb. apply H; [left; reflexivity|right; exact Hb|apply Ha, Hb].
Qed.

(** ** C118 *)

(** Every token set a search reports, from the initial one to the result, has a number of bytes
    per token, and it is never smaller than the numbers reported before. *)
Theorem C118_reported_ratio_never_falls : forall threads total samples init order clock n p t pre rounds ts0 m,
  1 <= threads -> ~ In [] samples -> shuffles order -> supported t n -> good_start n p t pre ->
  round_bound samples n <= rounds -> initial samples init n p t pre ts0 ->
  t <> BytesHuff \/ pre = None \/ no_room n ts0 -> 0 < length (concat samples) ->
  optimizing threads total samples init order clock n p t pre rounds m ->
  (forall ts, In ts (ts0 :: m_saved m) -> exists x, logged samples init ts x) /\
  StronglySorted (not_above samples init) (ts0 :: m_saved m) /\
  (forall s, returned m s -> forall ts x, In ts (ts0 :: m_saved m) -> logged samples init ts x ->
     (x <= f64_ratio (scanned_bytes s) (total_tokens s))%R).
Proof.
  intros threads total samples init order clock n p t pre rounds ts0 m Ht Hne Ho Hs Hp Hr H0 Hh Hb Hm.
  destruct (C45_never_longer threads total samples init order clock n p t pre rounds ts0 m Ht Hne Ho Hs Hp Hr H0 Hh Hm) as (S & Rs & _).
  destruct (C44_result_within_budget threads total samples init order clock n p t pre rounds m Ht Hne Ho Hs Hp Hr Hm) as (G & Gr).
  assert (V : forall ts, In ts (ts0 :: m_saved m) -> exists sp, visited t p sp ts).
  { intros ts [<-|Hi]; [eapply initial_visited; eauto|]. destruct (G ts Hi) as (_ & sp & V & _). eauto. }
  assert (W : forall a N N' x, visited t p (x : bool) a -> min_total a samples N' -> N' <= N ->
      (f64_ratio (length (concat samples)) N <= f64_ratio (length (concat samples)) N')%R).
  { intros a N N' x Va Ma L. apply C108_ratio_monotone. pose proof (bytes_need_tokens _ _ _ (visited_nonempty _ _ _ _ Va) Ma Hb). lia. }
  split; [|split].
  - intros ts Hi. destruct (V ts Hi) as (sp & Vs). exact (logged_exists samples init t p sp ts Vs).
  - eapply sorted_in_impl; [|exact S]. intros a b Ha Hb' L x y Hx Hy. destruct (V a Ha) as (sa & Va). destruct (V b Hb') as (sb & Vb).
    destruct (logged_is _ _ _ _ _ _ _ Va Hx) as (N & MN & ->). destruct (logged_is _ _ _ _ _ _ _ Vb Hy) as (N' & MN' & ->).
    apply (W b N N' sb Vb MN'). exact (L N N' MN MN').
  - intros s E ts x Hi Hx. destruct (Gr s E) as (_ & (sp' & V' & _) & M').
    rewrite (returned_scanned _ _ _ _ _ _ _ _ _ _ _ _ _ Ht Ho Hs Hp Hr Hm E).
    destruct (V ts Hi) as (sa & Va). destruct (logged_is _ _ _ _ _ _ _ Va Hx) as (N & MN & ->).
    specialize (Rs s E). rewrite Forall_forall in Rs. apply (W (st_token_set s) N (total_tokens s) sp' V' M'). exact (Rs ts Hi N _ MN M').
Qed.

(** For every type and every start: of two reported sets of the same size the later one has the larger
    number, for data of less than 2^52/774 bytes (5.8 terabytes). *)
Theorem C118_same_size_rises : forall threads total samples init order clock n p t pre rounds m,
  1 <= threads -> ~ In [] samples -> shuffles order -> supported t n -> good_start n p t pre ->
  round_bound samples n <= rounds ->
  0 < length (concat samples) -> (N.of_nat (774 * length (concat samples)) < 2 ^ 52)%N ->
  optimizing threads total samples init order clock n p t pre rounds m ->
  StronglySorted (below_same_size samples init) (m_saved m).
Proof.
  intros threads total samples init order clock n p t pre rounds m Ht Hne Ho Hs Hp Hr Hb Hl Hm.
  destruct (C52_search_makes_progress threads total samples init order clock n p t pre rounds m Ht Hne Ho Hs Hp Hr Hm) as (S & _).
  destruct (C44_result_within_budget threads total samples init order clock n p t pre rounds m Ht Hne Ho Hs Hp Hr Hm) as (G & _).
  eapply sorted_in_impl; [|exact S]. intros a b Ha Hb' (_ & L) E x y Hx Hy.
  destruct (G a Ha) as (_ & sa & Va & _). destruct (G b Hb') as (_ & sb & Vb & _).
  destruct (logged_is _ _ _ _ _ _ _ Va Hx) as (N & MN & ->). destruct (logged_is _ _ _ _ _ _ _ Vb Hy) as (N' & MN' & ->).
  pose proof (visited_total_bound _ _ _ _ _ _ Va (proj2 (total_for_min _ _ _) MN)) as B1.
  pose proof (visited_total_bound _ _ _ _ _ _ Vb (proj2 (total_for_min _ _ _) MN')) as B2.
  pose proof (bytes_need_tokens _ _ _ (visited_nonempty _ _ _ _ Va) MN Hb) as P1.
  pose proof (bytes_need_tokens _ _ _ (visited_nonempty _ _ _ _ Vb) MN' Hb) as P2.
  assert (W : (2 ^ 52 < 2 ^ 53)%N) by reflexivity.
  destruct (L N N' MN MN') as [L'|L']; [lia|].
  apply C108_ratio_orders; [lia|lia|lia|exact L'].
Qed.

(** With several samples, a hurried clock and pairs worth joining, from [first_set]. *)
Theorem C118_hypotheses_met :
  let samples := [[x61; x62]; [x61; x62; x61; x62]] in
  shuffles (fun _ l => l) /\ ~ In [] samples /\ supported Bits1 4 /\ good_start 4 Raw Bits1 None /\
  initial samples None 4 Raw Bits1 None (new_bits1 Raw true) /\ 0 < length (concat samples) /\
  (N.of_nat (774 * length (concat samples)) < 2 ^ 52)%N /\
  exists m s, optimizing 2 6 samples None (fun _ l => l) (fun _ => true) 4 Raw Bits1 None (round_bound samples 4) m /\ returned m s.
Proof.
  cbv zeta. assert (Hs : shuffles (fun _ l => l)) by (intros m l; reflexivity).
  assert (Hn : ~ In [] [[x61; x62]; [x61; x62; x61; x62]]) by (cbn; intuition discriminate).
  assert (G : supported Bits1 4) by (unfold supported; cbn; lia).
  split; [exact Hs|]. split; [exact Hn|]. split; [exact G|]. split; [exact I|]. split; [reflexivity|].
  split; [cbn; lia|]. split; [reflexivity|].
  apply C43_optimization_never_panics_partial; [lia|exact Hn|exact Hs|exact G|exact I|apply le_n].
Qed.
