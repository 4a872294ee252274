(** * C84: the files the earlier optimizer writes (src/optimizer.rs [optimize_token_set]). *)
From Verif Require Import Base BaseLemmas LegacyModel LegacySpec LegacyTok PropLegacyTok LegacyOptModel LegacyOptProof
  PropLegacyCache LegacyBytesProof PropLegacyBytes LegacyPairs LegacyValues PropLegacyBpe LegacyExchange PropLegacyExchange PropLegacyOptBpe.
From Coq Require Import ZArith Sorted Permutation.

(** A token set with the encoding [e] and [n] tokens. *)
Record shape (e : lenc) (n : nat) (ts : lset) : Prop := {
  sh_built : l_built ts;
  sh_enc : l_enc ts = e;
  sh_nonempty : ~ In [] (l_strings ts);
  sh_size : l_ntokens ts = n
}.

Lemma shape_length e n ts ts' : shape e n ts -> l_built ts' -> l_enc ts' = e -> ~ In [] (l_strings ts') ->
  length (l_tokens ts') = length (l_tokens ts) -> shape e n ts'.
Proof. intros [H1 H2 H3 H4] A B C D. constructor; auto. rewrite <- H4. unfold l_ntokens. rewrite B, D, H2. reflexivity. Qed.

Lemma slow_ok o j e n ts slow : oracle_ok o -> good_samples slow -> shape e n ts ->
  exists s, slow_stats o j ts slow = Ret s /\ l_costs ts slow (l_cost s).
Proof.
  intros Ho Hs [Hb He Hn _]. destruct (tokenize_samples o j ts false slow Ho (l_built_ok _ Hb) Hn Hs) as (f & s & _ & E & _ & Hc).
  exists s. auto.
Qed.

Lemma bytes_ok o j e n ts slow s : oracle_ok o -> good_samples slow -> shape e n ts -> e <> LHex -> slow_stats o j ts slow = Ret s ->
  forall k, exists ts' ch, optimize_byte_tokens o k ts s = Ret (ts', ch) /\ shape e n ts' /\ (ch = false -> ts' = ts) /\
    forall c c', l_costs ts slow c -> l_costs ts' slow c' -> c' <= c.
Proof.
  intros Ho Hs Hsh Hh E k. pose proof Hsh as [Hb He Hn Hsz]. subst e. unfold slow_stats in E. pose proof (o_dist_ok _ Ho j slow) as Hp.
  destruct (C78_byte_tokens_partial o k ts false (o_dist o j slow) s Ho Hb Hh Hn) as (ts' & ch & f & Er & Hch & Hb' & He' & Hlen & Hmulti & _ & _ & Hc).
  { intros w Hw. apply Hs. eapply Permutation_in; eassumption. } { exact E. }
  exists ts', ch. split; [exact Er|]. split; [|split; [exact Hch|]].
  - apply (shape_length _ _ ts); auto. intros H. apply in_map_iff in H as (t & Ht & H).
    assert (Ht2 : In t (filter (fun t => negb (length (lt_string t) =? 1)) (l_tokens ts'))) by (apply filter_In; rewrite Ht; auto).
    rewrite Hmulti in Ht2. apply filter_In in Ht2 as (Ht2 & _). apply Hn. apply in_map_iff. eauto.
  - intros c c' H1 H2. apply Hc; eapply l_costs_perm; try (apply Permutation_sym; exact Hp); assumption.
Qed.

(** Whatever a cache answers, an exchange keeps the size. *)
Lemma raa_loop_shape o e n ts cost strs : oracle_ok o -> shape e n ts -> n <= 256 * 256 -> forall tries c fast att r c' fast' att',
  good_samples (lc_samples fast) -> raa_loop o ts cost strs tries c fast att = Ret (r, c', fast', att') ->
  lc_samples fast' = lc_samples fast /\ forall ts', r = RSome ts' -> shape e n ts'.
Proof.
  intros Ho Hsh Hn16. pose proof Hsh as [Hb He Hn Hsz]. pose proof (l_built_ok _ Hb) as Hok.
  induction strs as [|x strs IH]; intros tries c fast att r c' fast' att' Hs E; cbn [raa_loop] in E.
  - injection E as <- <- <- <-. split; [reflexivity|]. intros ts' X; discriminate X.
  - destruct ((512 <=? tries) && (0 <? attempts_of att x)); [injection E as <- <- <- <-; split; [reflexivity|intros ts' X; discriminate X]|].
    apply bind_ret in E as (ts1 & E1 & E). destruct (remove_tokens _ _ _ Hok E1) as (T1 & Ee1).
    assert (Hb1 : l_built ts1) by (eapply lb_remove; eassumption).
    assert (Hn1 : ~ In [] (l_strings ts1)).
    { intros H. apply Hn. unfold l_strings in *. rewrite T1 in H. apply in_map_iff in H as (t & Et & H). apply filter_In in H as (H & _).
      apply in_map_iff. eauto. }
    assert (Hl1 : length (l_tokens ts1) <= 256 * 256).
    { rewrite T1. pose proof (filter_le (fun t => negb (bstr_eqb (lt_string t) x)) (l_tokens ts)). unfold l_ntokens in Hsz. lia. }
    assert (Hin : exists m, In (mkLtok x m) (l_tokens ts)).
    { destruct (l_remove_inv ts x ts1 Hok E1) as (i & [s m] & Hi & Es & _). cbn in Es. subst s. exists m. eapply nth_error_In; exact Hi. }
    destruct Hin as (m & Hin).
    apply bind_ret in E as ([y fast1] & E2 & E).
    destruct (choose_ok o fast ts1 Ho Hb1 Hn1 Hl1 Hs) as [(y0 & f0 & E2' & Ef & Hx)|(E2' & _)]; rewrite E2' in E2; [|discriminate E2].
    injection E2 as -> ->.
    destruct (bstr_eqb_spec y x) as [->|Hne].
    { apply IH in E; [|rewrite Ef; exact Hs]. destruct E as (A & B). split; [congruence|exact B]. }
    apply bind_ret in E as (ts2 & E3 & E). apply bind_ret in E as ([st c2] & E4 & E).
    destruct Hx as (g & k & Hg & Hcand & _). destruct (candidate_new ts1 Hn1 g (lc_samples fast) Hg _ _ Hcand) as (Hnew & Hne2 & _).
    assert (E3' : l_add_token ts1 y = Ret (push_token ts1 y false)).
    { unfold l_add_token. rewrite (proj2 (indexes_None _ _ _ (l_built_ok _ Hb1)) Hnew). reflexivity. }
    rewrite E3' in E3. injection E3 as <-.
    destruct (l_cost st <? cost).
    + injection E as <- <- <- <-. split; [exact Ef|]. intros ts' X. injection X as <-. apply (shape_length _ _ ts); auto.
      * eapply lb_add; eassumption.
      * cbn. congruence.
      * unfold l_strings, push_token. cbn. rewrite map_app. intros H. apply in_app_or in H as [H|[H|[]]]; [exact (Hn1 H)|]. cbn in H. congruence.
      * cbn [l_tokens push_token]. rewrite app_length, T1. cbn [length]. rewrite <- (removed_length (l_tokens ts) x m (indexes_NoDup _ _ Hok) Hin). lia.
    + apply IH in E; [|rewrite Ef; exact Hs]. destruct E as (A & B). split; [congruence|exact B].
Qed.

Lemma raa_shape o e n ts c fast att r c' fast' att' : oracle_ok o -> shape e n ts -> n <= 256 * 256 -> good_samples (lc_samples fast) ->
  remove_and_add o c fast ts att = Ret (r, c', fast', att') ->
  lc_samples fast' = lc_samples fast /\ forall ts', r = Some ts' -> shape e n ts'.
Proof.
  intros Ho Hsh Hn16 Hs E. unfold remove_and_add in E. apply bind_ret in E as ([s c1] & _ & E). apply bind_ret in E as (strs & _ & E).
  apply bind_ret in E as ([[[r0 c2] f2] a2] & E & E'). injection E' as <- <- <- <-.
  destruct (raa_loop_shape o e n ts (l_cost s) strs Ho Hsh Hn16 _ _ _ _ _ _ _ _ Hs E) as (A & B). split; [exact A|].
  intros ts' X. destruct r0 as [| |t]; try discriminate X. injection X as ->. apply B; reflexivity.
Qed.

(** ** The saved sets *)
Definition saved_ok (e : lenc) (n : nat) (slow : list bstr) (out : saved) : Prop :=
  (forall ts s, In (ts, s) out -> shape e n ts /\ l_costs ts slow (l_cost s)) /\
  StronglySorted (fun a b => l_cost (snd b) <= l_cost (snd a)) out.

Lemma sorted_snoc {A} (R : A -> A -> Prop) l x : StronglySorted R l -> (forall a, In a l -> R a x) -> StronglySorted R (l ++ [x]).
Proof.
  induction l as [|a l IH]; intros Hs H; cbn; [constructor; constructor|]. apply StronglySorted_inv in Hs as (Hs & Hall). constructor.
  - apply IH; [exact Hs|]. intros b Hb; apply H; right; exact Hb.
  - rewrite Forall_forall in *. intros b Hb. apply in_app_or in Hb as [Hb|[<-|[]]]; [apply Hall; exact Hb|apply H; left; reflexivity].
Qed.

Lemma saved_snoc e n slow out ts s : saved_ok e n slow out -> shape e n ts -> l_costs ts slow (l_cost s) ->
  (forall a, In a out -> l_cost s <= l_cost (snd a)) -> saved_ok e n slow (out ++ [(ts, s)]).
Proof.
  intros (H1 & H2) Hsh Hc Hle. split.
  - intros t u Hin. apply in_app_or in Hin as [Hin|[E|[]]]; [apply H1; exact Hin|]. injection E as <- <-. auto.
  - apply sorted_snoc; assumption.
Qed.

Lemma opt_loop_ok o timer slow e n : oracle_ok o -> e <> LHex -> n <= 256 * 256 -> good_samples slow ->
  forall fuel k c fast ts att best out ts' best' out' k', good_samples (lc_samples fast) -> shape e n ts -> saved_ok e n slow out ->
  (forall a, In a out -> best <= l_cost (snd a)) -> out <> [] ->
  opt_loop fuel o timer slow k c fast ts att best out = Ret (ts', best', out', k') ->
  shape e n ts' /\ saved_ok e n slow out' /\ (forall a, In a out' -> best' <= l_cost (snd a)) /\ exists rest, out' = out ++ rest.
Proof.
  intros Ho Hh Hn16 Hslow. induction fuel as [|fuel IH]; intros k c fast ts att best out ts' best' out' k' Hs Hsh Hout Hbest Hne E; cbn [opt_loop] in E; [discriminate E|].
  apply bind_ret in E as ([[[r c1] fast1] att1] & Er & E). destruct (raa_shape o e n ts c fast att r c1 fast1 att1 Ho Hsh Hn16 Hs Er) as (Hf1 & Hr).
  destruct r as [ts1|].
  2:{ injection E as <- <- <- <-. split; [exact Hsh|]. split; [exact Hout|]. split; [exact Hbest|]. exists []. rewrite app_nil_r. reflexivity. }
  specialize (Hr ts1 eq_refl). destruct (timer k).
  2:{ apply IH in E; auto. rewrite Hf1; exact Hs. }
  destruct (slow_ok o k e n ts1 slow Ho Hslow Hr) as (s & Es & Hcs). rewrite Es in E. cbn [bind] in E.
  destruct (bytes_ok o k e n ts1 slow s Ho Hslow Hr Hh Es k) as (ts2 & ch & Eb & Hsh2 & Hch & _). rewrite Eb in E. cbn [bind] in E.
  apply bind_ret in E as (s2 & Es2 & E).
  assert (Hcs2 : l_costs ts2 slow (l_cost s2)).
  { destruct ch.
    - destruct (slow_ok o k e n ts2 slow Ho Hslow Hsh2) as (s3 & E3 & Hc3). rewrite E3 in Es2. injection Es2 as <-. exact Hc3.
    - injection Es2 as <-. rewrite (Hch eq_refl). exact Hcs. }
  destruct (Nat.ltb_spec (l_cost s2) best) as [Hlt|Hge].
  - apply IH in E; auto.
    + destruct E as (A & B & C & rest & D). split; [exact A|]. split; [exact B|]. split; [exact C|]. exists ((ts2, s2) :: rest). rewrite D, <- app_assoc. reflexivity.
    + rewrite Hf1; exact Hs.
    + apply saved_snoc; auto. intros a Ha. specialize (Hbest a Ha). lia.
    + intros a Ha. apply in_app_or in Ha as [Ha|[<-|[]]]; [specialize (Hbest a Ha); lia|apply Nat.le_refl].
    + destruct out; discriminate.
  - apply IH in E; auto. rewrite Hf1; exact Hs.
Qed.

(** ** C84
    Each time a file is written, the set in it is a set of the size asked for, the statistics
    are those of the slow samples, and the cost on them is never more than that of the sets
    written before, nor than that of the set the optimization began with. *)
Theorem C84_saved_partial fuel o timer slow samples fast ts n block out : oracle_ok o ->
  l_built ts -> l_enc ts <> LHex -> ~ In [] (l_strings ts) -> 1 <= block -> Nat.max n (l_ntokens ts) <= 256 * 256 ->
  good_samples slow -> good_samples samples -> good_samples fast ->
  optimize_token_set fuel o timer slow samples fast ts n block = Ret out ->
  exists ts1 s1 rest, out = (ts1, s1) :: rest /\
  (forall ts' s, In (ts', s) out -> l_built ts' /\ l_enc ts' = l_enc ts /\ ~ In [] (l_strings ts') /\
     l_ntokens ts' = Nat.max n (l_ntokens ts) /\ l_costs ts' slow (l_cost s)) /\
  StronglySorted (fun a b => l_cost (snd b) <= l_cost (snd a)) out /\
  forall k, l_costs ts slow k -> l_cost s1 <= k.
Proof.
  intros Ho Hb Hh Hn Hblock H16 Hslow Hsam Hfast E. unfold optimize_token_set in E.
  apply bind_ret in E as ([ts0 c] & E0 & E).
  destruct (C80_bpe_partial o (lcache_new samples) ts n block Ho ltac:(lia) Hblock Hb Hn Hsam) as (_ & Hcase & _).
  destruct Hcase as [(ts0' & c0 & Eb & Hgr)|(Hout & _)]; [|rewrite Hout in E0; discriminate E0].
  assert (ts0' = ts0).
  { specialize (Eb (Nat.max n fuel) ltac:(lia)). rewrite (bpe_mono o n block fuel (Nat.max n fuel) _ _ _ ltac:(lia) E0) in Eb. congruence. }
  subst ts0'. clear Eb c0. destruct Hgr as (Hb0 & He0 & Hn0 & (added & T0 & Hadd) & _).
  set (N := Nat.max n (l_ntokens ts)) in *. set (e := l_enc ts) in *.
  assert (Hsh0 : shape e N ts0).
  { constructor; auto. rewrite (strings_app _ _ _ T0). intros H. apply in_app_or in H as [H|H]; [exact (Hn H)|].
    destruct (Hadd _ H) as (X & _). congruence. }
  destruct (slow_ok o 0 e N ts0 slow Ho Hslow Hsh0) as (s & Es & Hcs). rewrite Es in E. cbn [bind] in E.
  destruct (bytes_ok o 0 e N ts0 slow s Ho Hslow Hsh0 Hh Es 0) as (ts1 & ch & Eb & Hsh1 & Hch & Hle). rewrite Eb in E. cbn [bind] in E.
  apply bind_ret in E as (s1 & Es1 & E).
  assert (Hcs1 : l_costs ts1 slow (l_cost s1)).
  { destruct ch.
    - destruct (slow_ok o 0 e N ts1 slow Ho Hslow Hsh1) as (s3 & E3 & Hc3). rewrite E3 in Es1. cbn [bind] in Es1.
      apply assert_that_bind in Es1 as (_ & Es1). injection Es1 as <-. exact Hc3.
    - injection Es1 as <-. rewrite (Hch eq_refl). exact Hcs. }
  apply bind_ret in E as ([[[ts2 best] out1] kf] & El & E).
  destruct (opt_loop_ok o timer slow e N Ho Hh H16 Hslow fuel 1 c (lcache_new fast) ts1 [] (l_cost s1) [(ts1, s1)] ts2 best out1 kf) as (Hsh2 & Hsv & Hbest & rest & Erest); auto.
  { split; [|constructor; constructor]. intros t u [X|[]]. injection X as <- <-. auto. }
  { intros a [<-|[]]. apply Nat.le_refl. }
  { discriminate. }
  destruct (slow_ok o kf e N ts2 slow Ho Hslow Hsh2) as (s2 & Es2 & Hcs2). rewrite Es2 in E. cbn [bind] in E.
  destruct (bytes_ok o kf e N ts2 slow s2 Ho Hslow Hsh2 Hh Es2 kf) as (ts3 & ch2 & Eb2 & Hsh3 & Hch2 & Hle2). rewrite Eb2 in E. cbn [bind] in E.
  apply bind_ret in E as (s3 & Es3 & E).
  assert (Hcs3 : l_costs ts3 slow (l_cost s3)).
  { destruct ch2.
    - destruct (slow_ok o kf e N ts3 slow Ho Hslow Hsh3) as (s4 & E4 & Hc4). rewrite E4 in Es3. cbn [bind] in Es3.
      apply assert_that_bind in Es3 as (_ & Es3). injection Es3 as <-. exact Hc4.
    - injection Es3 as <-. rewrite (Hch2 eq_refl). exact Hcs2. }
  assert (Hfin : saved_ok e N slow out /\ exists rest', out = (ts1, s1) :: rest').
  { injection E as <-. destruct (Nat.leb_spec (l_cost s3) best) as [Hle3|_].
    - split; [apply saved_snoc; auto; intros a Ha; specialize (Hbest a Ha); lia|]. rewrite Erest. cbn. eauto.
    - split; [exact Hsv|]. rewrite Erest. cbn. eauto. }
  destruct Hfin as ((F1 & F2) & rest' & Hr). exists ts1, s1, rest'. split; [exact Hr|]. split; [|split; [exact F2|]].
  - intros t u Hin. destruct (F1 t u Hin) as ([A B C D] & G). auto.
  - intros k Hk. assert (l_cost s1 <= l_cost s) by (eapply Hle; eassumption).
    pose proof (costs_mono ts ts0 slow k (l_cost s) (l_built_ok _ Hb0) He0) as Hm. rewrite (strings_app _ _ _ T0) in Hm.
    specialize (Hm ltac:(intros x Hx; apply in_or_app; left; exact Hx) Hk Hcs). lia.
Qed.
