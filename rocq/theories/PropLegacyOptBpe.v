(** * C83: the optimization of a token set in memory (src/optimizer.rs [optimize_bpe]). *)
From Verif Require Import Base BaseLemmas LegacyModel LegacySpec LegacyTok PropLegacyTok LegacyOptModel LegacyOptProof
  PropLegacyCache LegacyBytesProof LegacyPairs LegacyValues PropLegacyBpe LegacyExchange PropLegacyExchange.
From Coq Require Import ZArith Sorted Permutation.

(** There are at least [n] different samples. *)
Definition different (n : nat) (samples : list bstr) : Prop := exists l, NoDup l /\ incl l samples /\ n <= length l.

Lemma different_enough ts samples : l_ok ts -> different (length (l_tokens ts)) samples -> enough ts samples.
Proof.
  intros Hok (l & Hnd & Hincl & Hlen) s Hs. apply removable_in in Hs as ([s0 m] & Ht & Es & _). cbn in Es. subst s0.
  assert (D : forall a b : bstr, {a = b} + {a <> b}) by apply (list_eq_dec Byte.byte_eq_dec).
  destruct (Exists_dec (fun w => w = s \/ ~ In w (l_strings ts)) l) as [He|He].
  { intros w. destruct (D w s); [left; left; assumption|]. destruct (in_dec D w (l_strings ts)); [right; tauto|left; right; assumption]. }
  - apply Exists_exists in He as (w & Hw & H). exists w. split; [apply Hincl; exact Hw|exact H].
  - exfalso. pose proof (removed_length (l_tokens ts) s m (indexes_NoDup _ _ Hok) Ht) as Hr.
    assert (length l <= length (map lt_string (filter (fun t => negb (bstr_eqb (lt_string t) s)) (l_tokens ts)))).
    { apply NoDup_incl_length; [exact Hnd|]. intros w Hw.
      assert (Hws : w <> s /\ In w (l_strings ts)).
      { split; [intros ->; apply He; apply Exists_exists; exists s; auto|].
        destruct (in_dec D w (l_strings ts)) as [H|H]; [exact H|]. exfalso. apply He. apply Exists_exists. exists w; auto. }
      destruct Hws as (H1 & H2). unfold l_strings in H2. apply in_map_iff in H2 as (u & <- & Hu). apply in_map. apply filter_In.
      split; [exact Hu|]. apply negb_true_iff, bstr_eqb_neq. exact H1. }
    rewrite map_length in H. lia.
Qed.

(** ** The cache while the set grows *)
Lemma grown_clean ts ts' added samples : clean ts -> l_built ts' -> no_zero samples ->
  l_tokens ts' = l_tokens ts ++ map (fun x => mkLtok x false) added ->
  (forall x, In x added -> x <> [] /\ exists w a b, In w samples /\ w = a ++ x ++ b) -> clean ts'.
Proof.
  intros Hc Hb Hz T H. split; [exact Hb|]. intros x Hx. rewrite (strings_app _ _ _ T) in Hx. apply in_app_or in Hx as [Hx|Hx]; [apply Hc; exact Hx|].
  destruct (H x Hx) as (Hne & w & a & b & Hw & ->). split; [exact Hne|]. intros Hin. apply (Hz _ Hw). apply in_or_app; right. apply in_or_app; left. exact Hin.
Qed.

Lemma bpe_cache o e n block : oracle_ok o -> n <= 256 * 256 -> forall fuel c ts ts' c', cache_good e c -> clean ts -> l_enc ts = e ->
  no_zero (lc_samples c) ->
  add_tokens_bpe fuel o c ts n block = Ret (ts', c') -> cache_good e c' /\ lc_samples c' = lc_samples c.
Proof.
  intros Ho Hn16. induction fuel as [|fuel IH]; intros c ts ts' c' Hg Hc He Hz E; cbn [add_tokens_bpe] in E.
  - destruct (l_ntokens ts <? n); [discriminate E|]. injection E as <- <-. auto.
  - destruct (Nat.ltb_spec (l_ntokens ts) n) as [Hlt|]; [|injection E as <- <-; auto].
    destruct (clean_facts ts Hc) as (Hok & Hn & _).
    assert (Hl : length (l_tokens ts) <= 256 * 256) by (unfold l_ntokens in Hlt; lia).
    destruct (bpe_round o c ts (Nat.min block (n - l_ntokens ts)) Ho (proj1 Hc) Hn Hl (cg_samples _ _ Hg))
      as (ts1 & added & c1 & s & c2 & f & E1 & E2 & Ec & Hf & Hba & Hb' & Hn' & He' & T').
    rewrite E1 in E. cbn [bind] in E. rewrite E2 in E. cbn [bind] in E.
    assert (Hc1 : clean ts1).
    { apply (grown_clean ts ts1 added (lc_samples c)); auto. intros x Hx. destruct (ba_cand _ _ _ _ _ Hba _ Hx) as (k & Hk).
      destruct (candidate_new ts Hn f (lc_samples c) Hf _ _ Hk) as (_ & X & _). split; [exact X|]. eapply candidate_occurs; eassumption. }
    assert (Hg1 : cache_good e c1 /\ lc_samples c1 = lc_samples c).
    { destruct (with_pairs_ok o e c ts Ho Hg Hc He) as (f0 & s0 & c0 & E0 & _ & _ & Hg0 & Hs0).
      unfold add_tokens in E1. rewrite E0 in E1. cbn [bind] in E1.
      apply bind_ret in E1 as (pv & _ & E1). apply bind_ret in E1 as (r & _ & E1). apply bind_ret in E1 as (t & _ & E1). injection E1 as _ _ <-. auto. }
    destruct Hg1 as (Hg1 & Hs1).
    destruct (get_stats_ok o e c1 ts1 Ho Hg1 Hc1 (eq_trans He' He)) as (_ & _ & s3 & c3 & E3 & _ & _ & _ & _ & _ & _ & Hg3 & Hs3).
    rewrite E2 in E3. injection E3 as _ <-.
    destruct (IH c2 ts1 ts' c' Hg3 Hc1 (eq_trans He' He)) as (G1 & G2); [rewrite Hs3, Hs1; exact Hz|exact E|].
    split; [exact G1|congruence].
Qed.

(** ** The loop *)
Lemma bpe_loop_ok o e samples fast_samples : oracle_ok o -> good_samples fast_samples -> no_zero fast_samples ->
  forall k ts c fast attempts, l_costs ts samples k -> cache_good e c -> lc_samples c = samples -> lc_samples fast = fast_samples ->
  clean ts -> l_enc ts = e -> length (l_tokens ts) <= 256 * 256 -> different (length (l_tokens ts)) fast_samples ->
  exists ts' c', (forall fuel, k < fuel -> bpe_loop fuel o c fast ts attempts = Ret (ts', c')) /\
    cache_good e c' /\ lc_samples c' = samples /\ clean ts' /\ l_enc ts' = e /\ length (l_tokens ts') = length (l_tokens ts) /\
    (forall k', l_costs ts' samples k' -> k' <= k) /\ raa_outcome ts' samples fast_samples None.
Proof.
  intros Ho Hsf Hz. induction k as [k IH] using (well_founded_induction lt_wf). intros ts c fast attempts Hk Hg Hcs Hfs Hc He Hl Hd.
  destruct (clean_facts ts Hc) as (Hok & Hn & _).
  destruct (get_stats_ok o e c ts Ho Hg Hc He) as (_ & _ & s & c0 & Es & _ & _ & _ & _ & _ & _ & Hg0 & Hs0).
  destruct (raa_ok o e c0 fast ts attempts Ho Hg0 Hc He Hl) as (r & c1 & fast1 & att1 & Er & Hg1 & Hs1 & Hf1 & Hr).
  { rewrite Hfs; exact Hsf. } { rewrite Hfs; exact Hz. } { rewrite Hfs. apply different_enough; assumption. }
  rewrite Hs0, Hcs in *. rewrite Hfs in *. destruct r as [ts1|].
  - pose proof Hr as (y & x & _ & Hrep & Hc1 & Hlen1 & Hlt). destruct (clean_facts ts1 Hc1) as (Hok1 & Hn1 & _).
    destruct (costs_exist ts1 samples Hok1 Hn1) as (k1 & Hk1). pose proof (Hlt _ _ Hk Hk1) as Hlt1.
    assert (He1 : l_enc ts1 = e) by (destruct Hrep as (_ & _ & X & _); congruence).
    destruct (IH k1 Hlt1 ts1 c1 fast1 att1 Hk1 Hg1 Hs1 Hf1 Hc1 He1) as (ts' & c' & E & G1 & G2 & G3 & G4 & G5 & G6 & G7).
    { rewrite Hlen1; exact Hl. } { rewrite Hlen1; exact Hd. }
    exists ts', c'. split.
    { intros [|fuel] Hf; [lia|]. cbn [bpe_loop]. rewrite Es. cbn [bind]. rewrite Er. cbn [bind]. apply E. lia. }
    do 4 (split; [assumption|]). split; [congruence|]. split; [|exact G7]. intros k' Hk'. pose proof (G6 k' Hk'). lia.
  - exists ts, c1. split.
    { intros [|fuel] Hf; [lia|]. cbn [bpe_loop]. rewrite Es. cbn [bind]. rewrite Er. reflexivity. }
    do 4 (split; [assumption|]). split; [reflexivity|]. split; [|exact Hr]. intros k' Hk'. rewrite (l_costs_unique _ _ _ _ Hk' Hk). apply Nat.le_refl.
Qed.

(** ** C83
    With samples without zero bytes and enough different ones, [optimize_bpe] ends; the set
    it returns has the size asked for, costs no more than the one given (less, if that was
    smaller), the statistics are those of the returned set, and if at most 512 tokens are
    removable, no further exchange would be cheaper. *)
Theorem C83_optimize_partial o ts n samples fast block : oracle_ok o -> clean ts -> 1 <= block ->
  Nat.max n (l_ntokens ts) <= 256 * 256 ->
  good_samples samples -> no_zero samples -> different n samples ->
  good_samples fast -> no_zero fast -> different (Nat.max n (l_ntokens ts)) fast ->
  exists ts' s bound, (forall fuel, bound <= fuel -> optimize_bpe fuel o ts n samples fast block = Ret (ts', s)) /\
    clean ts' /\ l_enc ts' = l_enc ts /\ l_ntokens ts' = Nat.max n (l_ntokens ts) /\
    l_costs ts' samples (l_cost s) /\
    (forall k, l_costs ts samples k -> l_cost s <= k /\ (l_ntokens ts < n -> l_cost s < k)) /\
    raa_outcome ts' samples fast None.
Proof.
  intros Ho Hc Hblock H16 Hs Hz Hd Hsf Hzf Hdf. destruct (clean_facts ts Hc) as (Hok & Hn & _).
  destruct (C80_bpe_partial o (lcache_new samples) ts n block Ho ltac:(lia) Hblock (proj1 Hc) Hn Hs) as (_ & Hcase & Hret).
  destruct Hcase as [(ts1 & c1 & E1 & Hgr)|(Hout & _)].
  2:{ exfalso. destruct Hd as (l & D1 & D2 & D3). destruct (Hret l D1 D2 D3) as (ts1 & c1 & E). specialize (E n (Nat.le_refl n)). rewrite Hout in E. discriminate E. }
  destruct Hgr as (Hb1 & He1 & Hn1 & (added & T1 & Hadd) & Hcost1). cbn [lc_samples lcache_new] in *.
  pose proof (grown_clean ts ts1 added samples Hc Hb1 Hz T1 Hadd) as Hc1. destruct (clean_facts ts1 Hc1) as (Hok1 & Hne1 & _).
  destruct (bpe_cache o (l_enc ts) n block Ho ltac:(lia) n (lcache_new samples) ts ts1 c1 (cache_new_good _ _ Hs) Hc eq_refl Hz (E1 n (Nat.le_refl n))) as (Hg1 & Hs1).
  destruct (costs_exist ts1 samples Hok1 Hne1) as (k1 & Hk1).
  assert (Hlen1 : length (l_tokens ts1) <= Nat.max n (l_ntokens ts)) by (rewrite <- Hn1; unfold l_ntokens; lia).
  destruct (bpe_loop_ok o (l_enc ts) samples fast Ho Hsf Hzf k1 ts1 c1 (lcache_new fast) [] Hk1 Hg1 Hs1 eq_refl Hc1 He1)
    as (ts2 & c2 & E2 & Hg2 & Hs2 & Hc2 & He2 & Hlen2 & Hcost2 & Hr).
  { lia. }
  { destruct Hdf as (l & D1 & D2 & D3). exists l. split; [exact D1|]. split; [exact D2|]. lia. }
  destruct (get_stats_ok o (l_enc ts) c2 ts2 Ho Hg2 Hc2 He2) as (_ & _ & s & c3 & E3 & _ & _ & _ & _ & _ & Hcs & _ & _).
  rewrite Hs2 in Hcs. exists ts2, s, (Nat.max n (S k1)). split.
  { intros fuel Hf. unfold optimize_bpe. rewrite E1 by lia. cbn [bind]. rewrite E2 by lia. cbn [bind]. rewrite E3. reflexivity. }
  split; [exact Hc2|]. split; [exact He2|]. split; [unfold l_ntokens in *; rewrite Hlen2, He2; rewrite <- He1 at 1; exact Hn1|].
  split; [exact Hcs|]. split; [|exact Hr].
  intros k Hk. destruct (Hcost1 k k1 Hk Hk1) as (A & B). pose proof (Hcost2 _ Hcs). split; [lia|]. intros Hlt. specialize (B Hlt). lia.
Qed.

(** In general it does not end: when all samples are tokens there is nothing to add. *)
Theorem C83_optimize_refuted : forall o block, oracle_ok o -> exists ts n samples,
  clean ts /\ good_samples samples /\ no_zero samples /\
  forall fuel, optimize_bpe fuel o ts n samples samples block = OutOfFuel.
Proof.
  intros o block Ho. exists (set1 la), 3, [la].
  assert (Hz : no_zero [la]) by (intros w [<-|[]] [H|[]]; discriminate H).
  assert (Hg : good_samples [la]) by (intros w [<-|[]]; discriminate).
  assert (Hn : ~ In [] (l_strings (set1 la))) by (cbn; intros [H|[]]; discriminate H).
  split.
  { split; [apply set1_built|]. intros s [<-|[]]. split; [discriminate|]. apply Hz. left; reflexivity. }
  split; [exact Hg|]. split; [exact Hz|]. intros fuel. unfold optimize_bpe. rewrite bpe_stuck; [reflexivity|exact Ho|apply set1_built|exact Hn| |exact Hg| |].
  - change (length (l_tokens (set1 la))) with 1. lia.
  - right. intros w [<-|[]]. left; reflexivity.
  - cbn. lia.
Qed.

(** A case of the hypotheses of the partial theorem. *)
Example C83_example : exists ts' s bound, (forall fuel, bound <= fuel ->
  optimize_bpe fuel plain_oracle (set1 lb) 3 [la; lb; map n2b [97; 98]] [lb; map n2b [98; 97]; la] 1 = Ret (ts', s)).
Proof.
  destruct (C83_optimize_partial plain_oracle (set1 lb) 3 [la; lb; map n2b [97; 98]] [lb; map n2b [98; 97]; la] 1 plain_oracle_ok) as (ts' & s & bound & H & _);
    [| | | | | | | | |exists ts', s, bound; exact H].
  - split; [apply set1_built|]. intros s [<-|[]]. split; [discriminate|intros [H|[]]; discriminate H].
  - apply Nat.le_refl.
  - change (Nat.max 3 (l_ntokens (set1 lb))) with 3. lia.
  - intros w H. cbn in H. destruct H as [<-|[<-|[<-|[]]]]; discriminate.
  - intros w H. cbn in H. destruct H as [<-|[<-|[<-|[]]]]; cbn; intros H; repeat destruct H as [H|H]; try discriminate H; destruct H.
  - exists [la; lb; map n2b [97; 98]]. split; [|split; [apply incl_refl|apply Nat.le_refl]].
    repeat (constructor; [cbn; intros H; repeat destruct H as [H|H]; try discriminate H; try destruct H|]). constructor.
  - intros w H. cbn in H. destruct H as [<-|[<-|[<-|[]]]]; discriminate.
  - intros w H. cbn in H. destruct H as [<-|[<-|[<-|[]]]]; cbn; intros H; repeat destruct H as [H|H]; try discriminate H; destruct H.
  - exists [lb; map n2b [98; 97]; la]. split; [|split; [apply incl_refl|apply Nat.le_refl]].
    repeat (constructor; [cbn; intros H; repeat destruct H as [H|H]; try discriminate H; try destruct H|]). constructor.
Qed.
