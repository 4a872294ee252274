(** * The optimization loop. *)
From Coq Require Import ZArith.
From Verif Require Import Base BaseLemmas TokenSetModel TokenizerModel TokSpec SortLemmas TokenizerProof1 TokenizerProof2
  TokenizerTheory TokenSetProof TokenSetProof2 PropTokenizer PropTokenSet StatsAlgebra BatchModel PropBatch
  PropJson Shaped CacheModel PropCache OptBytesModel OptBytesProof OptBytesProof2
  OptBytesProof3 OptBytesProof4 PropOptBytes OptimizeModel OptimizeProof1 OptimizeProof2 OptimizeProof3 OptimizeProof4 OptimizeProof5 OptimizeProof6.

Section Loop.
Variables (samples : list bstr) (init : option nat) (t : token_type) (p : processing) (sp : bool).
Variables (order : smap nat -> list bstr -> list bstr) (clock : nat -> bool) (n : nat).
Hypothesis Hsp : t = BytesHuff -> sp = true.
Hypothesis Hord : forall m l x, In x (order m l) -> In x l.
Hypothesis Hn : is_bits t -> n <= hi t.

(** Token sets within the budget *)
Definition fits (ts : tokenset) : Prop := visited t p sp ts /\ ntokens ts <= n.

(** [better ts ts']: progress of one round. *)
Definition calm (ts : tokenset) : Prop := settled t ts \/ ntokens ts = n.

Definition better (ts ts' : tokenset) : Prop :=
  (calm ts -> calm ts') /\
  forall N N', total_for ts samples N -> total_for ts' samples N' ->
  (ntokens ts < ntokens ts' /\ (calm ts -> N' <= N)) \/ (ntokens ts <= ntokens ts' /\ N' < N).

Lemma not_huff_calm ts : t <> BytesHuff -> calm ts.
Proof. intros H. left. left. exact H. Qed.

Lemma answered_calm ts a : answered samples t p sp ts a -> calm ts -> calm (st_token_set a).
Proof.
  intros A [[H|H]|H]; [left; left; exact H|left; right|right; rewrite (an_ntokens A); exact H].
  unfold base_size in *. rewrite (an_ntokens A), (an_long A). exact H.
Qed.

Lemma added_fits ts ts' : ntokens ts < n -> added samples t p sp ts ts' -> fits ts' /\ better ts ts'.
Proof.
  intros H (V & E & M). split; [split; [exact V|lia]|].
  assert (C : calm ts -> settled t ts) by (intros [C|C]; [exact C|lia]).
  split; [intros Hc; left; apply (M (C Hc))|].
  intros N N' HN HN'. left. split; [lia|]. intros Hc. eapply (proj2 (M (C Hc))); eauto.
Qed.

(** An accepted replacement: statistics of a set in the budget with a smaller total. *)
Definition improved (ts : tokenset) (s : stats) (a : stats) : Prop :=
  fits (st_token_set a) /\ (ntokens (st_token_set a) = ntokens ts /\ ntokens ts = n) /\
  total_for (st_token_set a) samples (total_tokens a) /\ total_tokens a < total_tokens s.

Lemma an_total' ts a : answered samples t p sp ts a -> total_for (st_token_set a) samples (total_tokens a).
Proof.
  intros A. eapply total_same; [apply (an_dict A)|apply (an_total A)|apply (vi_usable _ _ _ _ (an_visited A))].
Qed.

Lemma full_base ts : ntokens ts < n -> is_bits t -> base_size ts < hi t.
Proof. intros H Hb. specialize (Hn Hb). unfold base_size. lia. Qed.

Lemma trade_byte_ok ts s S (Q : option stats -> Prop) : visited t p sp ts -> ntokens ts = n ->
  answered samples t p sp ts s -> Q None -> (forall a, improved ts s a -> Q (Some a)) ->
  ok samples init (trade_byte (optimizer_for t) ts n s) S Q.
Proof.
  intros V En A HN HS. unfold trade_byte. eapply ok_done; [apply checked_sub_le, n_long_le|]. fold (base_size ts).
  rewrite (visited_min _ _ _ _ V). destruct (Nat.ltb_spec (lo t) (base_size ts)) as [Hlt|Hge]; [|apply ok_ret; exact HN].
  eapply ok_done; [apply checked_sub_le; lia|].
  pose proof (base_range _ _ _ _ V) as R.
  destruct (bytes_optimizer_visited t p sp s (base_size ts - 1) Hsp (an_sized A) (an_visited A)) as (ts1 & E1 & V1 & B1 & L1); [lia|intros _; lia|].
  eapply ok_done; [exact E1|].
  assert (Hpos : 1 <= n) by (rewrite <- En, (base_ntokens ts); lia).
  eapply ok_done; [apply checked_sub_le; exact Hpos|].
  assert (N1 : ntokens ts1 = n - 1).
  { rewrite (base_ntokens ts1), L1, B1, (an_long A). pose proof (base_ntokens ts). lia. }
  eapply ok_done; [rewrite (proj2 (Nat.eqb_eq _ _) N1); reflexivity|].
  apply ok_stats_pairs; [apply (visited_askable t p sp); exact V1|]. intros s1 F1.
  destruct (fresh_answered samples init t p sp (WithPairs ts1) s1 V1 F1) as (A1 & P1). cbn [requested] in A1.
  destruct (add_pair_ok samples t p sp ts1 s1 A1 (P1 ts1 eq_refl)) as (r & Er & Hr). eapply ok_done; [exact Er|].
  destruct r as [[t2 g]|]; [|apply ok_ret; exact HN].
  destruct (Hr t2 g eq_refl) as ((V2 & N2 & _) & _).
  apply ok_stats; [apply (visited_askable t p sp); exact V2|]. intros a F2.
  destruct (fresh_answered samples init t p sp (NoPairs t2) a V2 F2) as (A2 & _). cbn [requested] in A2.
  apply ok_ret. destruct (Nat.ltb_spec (total_tokens a) (total_tokens s)) as [Hl|Hg]; [|exact HN].
  apply HS. split; [split; [apply (an_visited A2)|]|split; [split; [|exact En]|split; [eapply an_total'; exact A2|exact Hl]]]; rewrite (an_ntokens A2); lia.
Qed.

Lemma replace_loop_ok ts s S (Q : option stats * smap nat -> Prop) : visited t p sp ts -> ntokens ts = n ->
  answered samples t p sp ts s ->
  (forall rc, Q (None, rc)) -> (forall a rc, improved ts s a -> Q (Some a, rc)) ->
  forall l rc, (forall x, In x l -> In (Str x) (tokens ts) /\ 1 < length x) ->
  ok samples init (replace_loop (optimizer_for t) ts n s l rc) S Q.
Proof.
  intros V En A HN HS. induction l as [|x l IH]; intros rc Hl; cbn [replace_loop]; [apply ok_ret, HN|].
  destruct (Hl x (or_introl eq_refl)) as (Hx & Hlen).
  destruct (visited_remove t p sp ts x V Hx Hlen) as (i & ts1 & Ef & Er & V1 & N1 & L1).
  eapply ok_done; [rewrite Ef; reflexivity|]. eapply ok_done; [exact Er|].
  assert (Hpos : 1 <= n) by lia.
  eapply ok_done; [apply checked_sub_le; exact Hpos|].
  assert (N1' : ntokens ts1 = n - 1) by lia.
  eapply ok_done; [rewrite (proj2 (Nat.eqb_eq _ _) N1'); reflexivity|].
  assert (Hrest : forall y, In y l -> In (Str y) (tokens ts) /\ 1 < length y) by (intros y Hy; apply Hl; right; exact Hy).
  apply ok_bind. apply (opt_add_token_ok samples init t p sp Hsp); [exact V1|apply full_base; lia| |].
  - apply IH; exact Hrest.
  - intros ts2 (V2 & N2 & _). apply ok_stats; [apply (visited_askable t p sp); exact V2|]. intros a F2.
    destruct (fresh_answered samples init t p sp (NoPairs ts2) a V2 F2) as (A2 & _). cbn [requested] in A2.
    destruct (Nat.ltb_spec (total_tokens a) (total_tokens s)) as [Hlt|Hg]; [|apply IH; exact Hrest].
    apply ok_ret, HS. split; [split; [apply (an_visited A2)|]|split; [split; [|exact En]|split; [eapply an_total'; exact A2|exact Hlt]]]; rewrite (an_ntokens A2); lia.
Qed.

(** An accepted step with its statistics *)
Definition stepped (ts : tokenset) (a : stats) : Prop :=
  fits (st_token_set a) /\ better ts (st_token_set a).

Lemma improved_stepped ts s a : answered samples t p sp ts s -> improved ts s a -> stepped ts a.
Proof.
  intros A (F & (E & E') & T & L). split; [exact F|]. split; [intros _; right; lia|]. intros N N' HN HN'. right. split; [lia|].
  rewrite (total_unique _ _ _ _ HN (an_total A)), (total_unique _ _ _ _ HN' T). exact L.
Qed.

Lemma remove_add_ok ts rc S (Q : option stats * smap nat -> Prop) : fits ts ->
  (forall rc, Q (None, rc)) -> (forall a rc, stepped ts a -> Q (Some a, rc)) ->
  ok samples init (remove_add_token (optimizer_for t) order ts n rc) S Q.
Proof.
  intros (V & En) HN HS. unfold remove_add_token. destruct (Nat.ltb_spec (ntokens ts) n) as [Hlt|Hge].
  - apply ok_bind. apply (opt_add_token_ok samples init t p sp Hsp); [exact V|apply full_base; exact Hlt|apply ok_ret, HN|].
    intros ts' Ha. destruct (added_fits ts ts' Hlt Ha) as ((V' & En') & B).
    apply ok_stats; [apply (visited_askable t p sp); exact V'|]. intros a F.
    destruct (fresh_answered samples init t p sp (NoPairs ts') a V' F) as (A & _). cbn [requested] in A.
    apply ok_ret, HS. split; [split; [apply (an_visited A)|rewrite (an_ntokens A); exact En']|].
    split; [intros Hc; apply (answered_calm ts' a A), B, Hc|].
    intros N N' HN0 HN'. rewrite (an_ntokens A). apply B; [exact HN0|].
    eapply total_same; [apply same_dict_sym, (an_dict A)|exact HN'|apply (vi_usable _ _ _ _ V')].
  - assert (E : ntokens ts = n) by lia.
    eapply ok_done; [rewrite (proj2 (Nat.eqb_eq _ _) E); reflexivity|].
    apply ok_stats; [apply (visited_askable t p sp); exact V|]. intros s F.
    destruct (fresh_answered samples init t p sp (NoPairs ts) s V F) as (A & _). cbn [requested] in A.
    apply ok_bind. apply trade_byte_ok; auto.
    + cbn beta iota. apply replace_loop_ok; auto.
      * intros a rc' H. apply HS. eapply improved_stepped; eauto.
      * intros x Hx. apply Hord in Hx. apply in_flat_map in Hx as (tok & Ht & Hx). destruct tok as [y|]; [|destruct Hx].
        destruct (Nat.ltb_spec 1 (length y)); [|destruct Hx]. destruct Hx as [->|[]]. auto.
    + intros a H. apply ok_ret, HS. eapply improved_stepped; eauto.
Qed.

Lemma step_ok ts rc S (Q : option tokenset * smap nat -> Prop) : fits ts ->
  (forall rc, Q (None, rc)) -> (forall ts' rc, fits ts' -> better ts ts' -> Q (Some ts', rc)) ->
  ok samples init (optimization_step (optimizer_for t) order ts n rc) S Q.
Proof.
  intros (V & En) HN HS. unfold optimization_step.
  apply ok_stats; [apply (visited_askable t p sp); exact V|]. intros s F.
  destruct (fresh_answered samples init t p sp (NoPairs ts) s V F) as (A & _). cbn [requested] in A.
  pose proof (base_ntokens ts) as Eb. pose proof (base_range _ _ _ _ V) as R.
  eapply ok_done; [apply checked_sub_le; lia|].
  destruct (bytes_optimizer_visited t p sp s (n - n_long_tokens ts) Hsp (an_sized A) (an_visited A)) as (ts1 & E1 & V1 & B1 & L1); [lia|intros H; specialize (Hn H); lia|].
  eapply ok_done; [exact E1|].
  apply ok_stats; [apply (visited_askable t p sp); exact V1|]. intros a F1.
  destruct (fresh_answered samples init t p sp (NoPairs ts1) a V1 F1) as (A1 & _). cbn [requested] in A1.
  assert (N1 : ntokens ts <= ntokens ts1 <= n).
  { rewrite (base_ntokens ts1), L1, B1, (an_long A). lia. }
  destruct (Nat.ltb_spec (total_tokens a) (total_tokens s)) as [Hlt|Hge].
  - apply ok_ret, HS.
    + split; [apply (an_visited A1)|rewrite (an_ntokens A1); lia].
    + split.
      { intros _. apply (answered_calm ts1 a A1). pose proof (base_ntokens ts1) as E2. rewrite L1, B1, (an_long A) in E2.
        destruct (is_huff_dec t) as [Eh|Eh]; [|apply not_huff_calm; exact Eh].
        destruct (Nat.le_gt_cases (n - n_long_tokens ts) (hi t)) as [Hc|Hc]; [right; lia|left; right].
        rewrite B1, (Nat.min_r _ _ (Nat.lt_le_incl _ _ Hc)), Eh. reflexivity. }
      intros N N' HN0 HN'. right. rewrite (an_ntokens A1). split; [lia|].
      rewrite (total_unique _ _ _ _ HN0 (an_total A)), (total_unique _ _ _ _ HN' (an_total' _ _ A1)). exact Hlt.
  - apply ok_bind. apply remove_add_ok; [split; assumption|intros rc'; apply ok_ret, HN|].
    intros a1 rc' (F1' & B). eapply ok_done; [rewrite (proj2 (Nat.leb_le _ _)) by apply F1'; reflexivity|].
    apply ok_ret, HS; assumption.
Qed.

(** The bound on the totals *)
Definition bound : nat := 258 * length (concat samples).

(** Properties of all visited sets, relative to the set at the start *)
Definition reached (ts0 ts : tokenset) : Prop :=
  fits ts /\ (t <> BytesHuff -> forall N0 N, total_for ts0 samples N0 -> total_for ts samples N -> N <= N0).

Lemma reached_refl ts : fits ts -> reached ts ts.
Proof. intros F. split; [exact F|]. intros _ N0 N H0 H. rewrite (total_unique _ _ _ _ H0 H). lia. Qed.

Lemma total_exists ts : usable ts -> exists N, total_for ts samples N.
Proof.
  intros Hu. induction samples as [|x l (m & pss & Hp & _)].
  - exists 0, []. split; [constructor|reflexivity].
  - destruct (optimal_exists ts x Hu) as (ps & Ho). eexists. exists (ps :: pss). split; [constructor; assumption|reflexivity].
Qed.

Lemma loop_ok ts0 : forall fuel round ts rc N, reached ts0 ts -> total_for ts samples N ->
  (n - ntokens ts) * S bound + N < fuel ->
  ok samples init (optimize_loop (optimizer_for t) order clock fuel round ts n rc) (reached ts0) (reached ts0).
Proof.
  induction fuel as [|fuel IH]; intros round ts rc N (F & M) HN Hf; [exfalso; apply (Nat.nlt_0_r _ Hf)|]. cbn [optimize_loop].
  apply ok_bind. apply step_ok; [exact F|intros rc'; apply ok_ret; split; assumption|].
  intros ts' rc' F' B.
  destruct (total_exists ts' (vi_usable _ _ _ _ (proj1 F'))) as (N' & HN').
  assert (R' : reached ts0 ts').
  { split; [exact F'|]. intros Ht N0 N1 H0 H1. specialize (M Ht N0 N H0 HN). rewrite (total_unique _ _ _ _ H1 HN').
    destruct (proj2 B N N' HN HN') as [(_ & H)|(_ & H)]; [specialize (H (not_huff_calm _ Ht))|]; lia. }
  assert (Hm : (n - ntokens ts') * S bound + N' < fuel).
  { pose proof (visited_total_bound _ _ _ _ _ _ (proj1 F') HN') as Hb. fold bound in Hb.
    destruct F as (_ & Hle). destruct F' as (_ & Hle').
    destruct (proj2 B N N' HN HN') as [(H & _)|(H & H')].
    - replace (n - ntokens ts) with (S (n - ntokens ts - 1)) in Hf by lia.
      assert (Hx : (n - ntokens ts') * S bound <= (n - ntokens ts - 1) * S bound) by (apply Nat.mul_le_mono_r; lia).
      cbn [Nat.mul] in Hf. lia.
    - assert (Hx : (n - ntokens ts') * S bound <= (n - ntokens ts) * S bound) by (apply Nat.mul_le_mono_r; lia). lia. }
  destruct (clock round).
  - split; [exact R'|]. eapply IH; eauto.
  - eapply IH; eauto.
Qed.

(** The result of the whole search *)
Definition final (ts0 : tokenset) (s : stats) : Prop :=
  reached ts0 (st_token_set s) /\ total_for (st_token_set s) samples (total_tokens s) /\
  exists pss, tallied (st_token_set s) samples pss s.

Definition rounds : nat := S (n * S bound + bound).

Lemma impl_ok ts fuel : fits ts -> rounds <= fuel ->
  ok samples init (optimize_impl (optimizer_for t) order clock fuel ts n) (reached ts) (final ts).
Proof.
  intros F Hf. unfold optimize_impl. pose proof F as (V & Hle).
  apply ok_stats; [apply (visited_askable t p sp); exact V|]. intros s0 _.
  destruct (total_exists ts (vi_usable _ _ _ _ V)) as (N & HN).
  pose proof (visited_total_bound _ _ _ _ _ _ V HN) as Hb. fold bound in Hb.
  apply ok_bind. eapply ok_mono; [| |apply (loop_ok ts fuel 0 ts [] N); [apply reached_refl; exact F|exact HN|]].
  - intros x Hx; exact Hx.
  - intros ts1 (F1 & M1). cbn beta. destruct (ts_sort_total ts1 (visited_range _ _ _ _ (proj1 F1))) as (ts2 & Es).
    eapply ok_done; [exact Es|].
    destruct (visited_sort _ _ _ _ _ (proj1 F1) Es) as (V2 & N2 & _).
    split; [apply (visited_askable t p sp); exact V2|]. intros a Fa. cbn.
    destruct (fresh_answered samples init t p sp (NoPairs ts2) a V2 Fa) as (A & _). cbn [requested] in A.
    exists a. split; [reflexivity|]. split; [split; [split; [apply (an_visited A)|rewrite (an_ntokens A), N2; apply F1]|]|split].
    + intros Ht N0 N1 H0 H1. apply (M1 Ht N0 N1 H0).
      eapply (total_same (st_token_set a)); [|exact H1|apply (vi_usable _ _ _ _ (proj1 F1))].
      assert (D1 : same_dict ts1 ts2) by (apply sv_same_dict, ts_sort_sorted; exact Es).
      intros x c. rewrite (D1 x c), (an_dict A x c). reflexivity.
    + eapply an_total'; exact A.
    + apply (an_tallied A).
  - unfold rounds in Hf. assert (Hx : (n - ntokens ts) * S bound <= n * S bound) by (apply Nat.mul_le_mono_r; lia). lia.
Qed.
End Loop.
