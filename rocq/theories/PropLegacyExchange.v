(** * C79, C83: exchanging tokens (src/optimizer.rs [remove_and_add_token], [optimize_bpe], [optimize_token_set]). *)
From Verif Require Import Base BaseLemmas LegacyModel LegacySpec LegacyTok PropLegacyTok LegacyOptModel LegacyOptProof
  PropLegacyCache LegacyBytesProof LegacyPairs LegacyValues PropLegacyBpe LegacyExchange.
From Coq Require Import ZArith Sorted Permutation.

Definition raa_outcome (ts : lset) (samples fast : list bstr) (r : option lset) : Prop :=
  match r with
  | Some ts' => exists s x, best_without ts s fast x /\ replaced ts s x ts' /\ clean ts' /\
      length (l_tokens ts') = length (l_tokens ts) /\
      forall k k', l_costs ts samples k -> l_costs ts' samples k' -> k' < k
  | None => length (removable ts) <= 512 -> forall s, In s (removable ts) -> exists x, best_without ts s fast x /\
      (x = s \/ exists ts', replaced ts s x ts' /\ clean ts' /\ forall k k', l_costs ts samples k -> l_costs ts' samples k' -> k <= k')
  end.

Lemma removed_length (l : list ltoken) s m : NoDup (map lt_string l) -> In (mkLtok s m) l ->
  S (length (filter (fun t => negb (bstr_eqb (lt_string t) s)) l)) = length l.
Proof.
  induction l as [|t l IH]; intros Hnd Hin; [destruct Hin|]. cbn [map] in Hnd. apply NoDup_cons_iff in Hnd as (Ht & Hnd).
  cbn [filter length]. destruct Hin as [->|Hin].
  - cbn [lt_string] in *. rewrite bstr_eqb_refl. cbn [negb]. f_equal. f_equal. clear - Ht. induction l as [|u l IH]; [reflexivity|].
    cbn. cbn in Ht. destruct (bstr_eqb_spec (lt_string u) s) as [E|_]; [exfalso; apply Ht; left; exact E|]. cbn. f_equal.
    apply IH. intros H; apply Ht; right; exact H.
  - destruct (bstr_eqb_spec (lt_string t) s) as [E|_].
    + exfalso. apply Ht. rewrite E. change s with (lt_string (mkLtok s m)). apply in_map; exact Hin.
    + cbn [negb length]. rewrite IH; auto.
Qed.

Lemma replaced_length ts s x ts' : l_ok ts -> replaced ts s x ts' -> length (l_tokens ts') = length (l_tokens ts).
Proof.
  intros Hok (Hin & _ & _ & ->). rewrite app_length. cbn [length].
  rewrite <- (removed_length (l_tokens ts) s false (indexes_NoDup _ _ Hok) Hin). lia.
Qed.

Lemma raa_ok o e c fast ts attempts : oracle_ok o -> cache_good e c -> clean ts -> l_enc ts = e -> length (l_tokens ts) <= 256 * 256 ->
  good_samples (lc_samples fast) -> no_zero (lc_samples fast) -> enough ts (lc_samples fast) ->
  exists r c' fast' attempts', remove_and_add o c fast ts attempts = Ret (r, c', fast', attempts') /\
    cache_good e c' /\ lc_samples c' = lc_samples c /\ lc_samples fast' = lc_samples fast /\
    raa_outcome ts (lc_samples c) (lc_samples fast) r.
Proof.
  intros Ho Hg Hc He Hl Hs Hz Hen. destruct (clean_facts ts Hc) as (Hok & Hn & _).
  destruct (get_stats_ok o e c ts Ho Hg Hc He) as (ts0 & f & s & c1 & Es & Hc0 & _ & Hp & _ & T & Hcost & Hg1 & Hsam1).
  unfold remove_and_add. rewrite Es. cbn [bind].
  destruct (raa_strings_ok o (lc_calls c) ts s attempts Ho) as (strs & Estr & Hstr).
  { rewrite (lt_tokens_length _ _ _ _ _ T). apply Permutation_length in Hp. unfold l_strings in Hp. rewrite !map_length in Hp. congruence. }
  rewrite Estr. cbn [bind].
  destruct (raa_loop_ok o ts e (l_cost s) Ho Hc He Hl strs 0 c1 fast attempts Hg1 Hs Hz Hen) as (r & c' & fast' & att' & E & H1 & H2 & H3 & H4).
  { intros y Hy. eapply Permutation_in; eassumption. }
  rewrite E. cbn [bind]. rewrite Hsam1 in *. do 4 eexists. split; [reflexivity|]. split; [exact H1|]. split; [exact H2|]. split; [exact H3|].
  destruct r as [| |ts']; cbn [raa_outcome].
  - intros Hle. exfalso. apply Permutation_length in Hstr. lia.
  - intros _ y Hy. destruct (H4 y) as (x & Hx & Hcase); [eapply Permutation_in; [apply Permutation_sym|]; eassumption|].
    exists x. split; [exact Hx|]. destruct Hcase as [->|(ts' & Hr & Hc' & Hk)]; [left; reflexivity|]. right. exists ts'. split; [exact Hr|]. split; [exact Hc'|].
    intros k k' Hk1 Hk2. rewrite (l_costs_unique _ _ _ _ Hk1 Hcost). apply Hk; exact Hk2.
  - destruct H4 as (y & x & _ & Hx & Hr & Hc' & Hk). exists y, x. split; [exact Hx|]. split; [exact Hr|]. split; [exact Hc'|].
    split; [apply (replaced_length ts y x ts'); auto|].
    intros k k' Hk1 Hk2. rewrite (l_costs_unique _ _ _ _ Hk1 Hcost). apply Hk; exact Hk2.
Qed.

(** ** C79
    [remove_and_add_token], after any history of questions about sets without zero bytes: it
    does not panic; a set it returns has one removable token less and one new token more, the
    most frequent candidate of the fast samples, and costs strictly less; if there are at
    most 512 removable tokens and it returns nothing, no such exchange would be cheaper. *)
Theorem C79_exchange_partial o samples c fast ts attempts : oracle_ok o ->
  good_samples samples -> asked o (fun t => clean t /\ l_enc t = l_enc ts) samples c ->
  clean ts -> length (l_tokens ts) <= 256 * 256 ->
  good_samples (lc_samples fast) -> no_zero (lc_samples fast) -> enough ts (lc_samples fast) ->
  exists r c' fast' attempts', remove_and_add o c fast ts attempts = Ret (r, c', fast', attempts') /\
    raa_outcome ts samples (lc_samples fast) r.
Proof.
  intros Ho Hs Ha Hc Hl Hsf Hz Hen. destruct (asked_good o (l_enc ts) samples c Ho Hs Ha) as (Hg & El).
  destruct (raa_ok o (l_enc ts) c fast ts attempts Ho Hg Hc eq_refl Hl Hsf Hz Hen) as (r & c' & fast' & att' & E & _ & _ & _ & H).
  rewrite El in H. exists r, c', fast', att'. auto.
Qed.

Lemma seg_cost_pos ts e xs w : l_segments ts xs w -> w <> [] -> 1 <= l_seg_cost e xs.
Proof.
  intros H Hw. destruct H as [|x xs u r Hx Hr]; [congruence|]. unfold l_seg_cost. cbn [map]. rewrite sum_cons.
  destruct x as [i|b|]; cbn [l_piece_cost]; [lia| |discriminate Hx]. pose proof (literal_cost_pos e). lia.
Qed.

(** Without [enough] fast samples it may panic, for every oracle. *)
Theorem C79_exchange_refuted : exists ts samples fast,
  clean ts /\ good_samples samples /\ good_samples fast /\ no_zero fast /\
  forall o, oracle_ok o -> remove_and_add o (lcache_new samples) (lcache_new fast) ts [] = Panic.
Proof.
  exists (set2 la lb), [la], [la].
  assert (Hz : forall w, In w [la; lb] -> w <> [] /\ ~ In (n2b 0) w).
  { intros w [<-|[<-|[]]]; (split; [discriminate|intros [H|[]]; discriminate H]). }
  assert (Hc : clean (set2 la lb)).
  { split; [apply set2_built; discriminate|]. intros s Hs. apply Hz. exact Hs. }
  assert (Hg : good_samples [la]) by (intros w [<-|[]]; discriminate).
  split; [exact Hc|]. split; [exact Hg|]. split; [exact Hg|]. split; [intros w [<-|[]] [H|[]]; discriminate H|].
  intros o Ho. destruct (clean_facts _ Hc) as (Hok & Hn & _).
  set (ts := set2 la lb) in *.
  assert (Hl : length (l_tokens ts) <= 256 * 256) by (change (length (l_tokens ts)) with 2; lia).
  destruct (get_stats_ok o LDist8 (lcache_new [la]) ts Ho (cache_new_good _ _ Hg) Hc eq_refl) as (ts0 & f & s & c1 & Es & Hc0 & _ & Hp & _ & T & Hcost & Hg1 & Hsam1).
  unfold remove_and_add. rewrite Es. cbn [bind].
  destruct (raa_strings_ok o (lc_calls (lcache_new [la])) ts s [] Ho) as (strs & Estr & Hstr).
  { rewrite (lt_tokens_length _ _ _ _ _ T). apply Permutation_length in Hp. unfold l_strings in Hp. rewrite !map_length in Hp. congruence. }
  rewrite Estr. cbn [bind].
  assert (Hcost1 : l_cost s = 1).
  { destruct Hcost as (g & Hgo & ->). cbn [lc_samples lcache_new map]. rewrite sum_cons. change (sum []) with 0.
    destruct (single_token ts 0 la eq_refl) as (H1 & H2). destruct (Hgo la) as (H3 & H4). apply H4 in H1. rewrite H2 in H1.
    change (l_enc ts) with LDist8 in *.
    pose proof (seg_cost_pos _ LDist8 _ _ H3 ltac:(discriminate)). lia. }
  (* whatever comes before, removing lb panics *)
  assert (Hpanic : forall strs tries c fast att, tries + length strs <= 512 -> cache_good LDist8 c -> lc_samples c = [la] -> lc_samples fast = [la] ->
     incl strs (removable ts) -> In lb strs -> raa_loop o ts 1 strs tries c fast att = Panic).
  { clear - Ho Hc Hl Hg. induction strs as [|x strs IH]; intros tries c fast att Hle Hgc Hcs Hfs Hincl Hin; [destruct Hin|].
    cbn [raa_loop]. destruct (Nat.leb_spec 512 tries) as [H|_]; [cbn [length] in Hle; lia|]. cbn [andb].
    destruct (without ts LDist8 Hc eq_refl Hl x (Hincl x (or_introl eq_refl))) as (ts1 & E1 & Hc1 & He1 & Hl1 & Hs1 & T1). rewrite E1. cbn [bind].
    destruct (clean_facts ts1 Hc1) as (Hok1 & Hn1 & _).
    destruct (choose_ok o fast ts1 Ho (proj1 Hc1) Hn1 Hl1) as [(y & fast1 & Ex & Ef & Hx)|(Ep & _)]; [rewrite Hfs; exact Hg| |rewrite Ep; reflexivity].
    rewrite Ex. cbn [bind]. rewrite Hfs in *.
    assert (Hxb : x <> lb).
    { intros ->. destruct Hx as (g & n & Hgc1 & Hcand & _).
      eapply (no_candidate ts1 g [la] y n Hok1 Hn1 Hg Hgc1); [|exact Hcand]. intros w [<-|[]]. unfold l_strings. rewrite T1. left; reflexivity. }
    assert (Hin' : In lb strs) by (destruct Hin as [E|Hin]; [congruence|exact Hin]).
    assert (Hincl' : incl strs (removable ts)) by (intros z Hzz; apply Hincl; right; exact Hzz).
    cbn [length] in Hle.
    destruct (bstr_eqb_spec y x) as [->|Hne]; [apply IH; auto; lia|].
    destruct Hx as (g & n & Hgc1 & Hcand & _).
    destruct (with_new ts Hc x ts1 y n g [la] E1 Hc1 Hs1) as (ts' & Ea & Hc' & He' & _); auto.
    { intros w [<-|[]] [H|[]]; discriminate H. }
    rewrite Ea. cbn [bind]. destruct (get_stats_ok o LDist8 c ts' Ho Hgc Hc' He') as (_ & _ & st & c2 & Est & _ & _ & _ & _ & _ & Hcost & Hg2 & Hsam2).
    rewrite Est. cbn [bind]. rewrite Hcs in *.
    destruct (Nat.ltb_spec (l_cost st) 1) as [Hlt|_].
    - exfalso. destruct Hcost as (h & Hh & Eh). cbn [map] in Eh. rewrite sum_cons in Eh. change (sum []) with 0 in Eh.
      destruct (Hh la) as (H3 & _). pose proof (seg_cost_pos _ (l_enc ts') _ _ H3 ltac:(discriminate)). lia.
    - apply IH; auto. lia. }
  rewrite Hcost1. rewrite Hpanic; [reflexivity| | | | |intros z Hz'; eapply Permutation_in; eassumption|].
  - apply Permutation_length in Hstr. rewrite Hstr. change (length (removable ts)) with 2. lia.
  - exact Hg1.
  - exact Hsam1.
  - reflexivity.
  - eapply Permutation_in; [apply Permutation_sym; exact Hstr|]. right; left; reflexivity.
Qed.

(** A case of the hypotheses: an exchange that is made. *)
Example C79_example : exists r c' fast' attempts',
  remove_and_add plain_oracle (lcache_new [la; la]) (lcache_new [la]) (set1 lb) [] = Ret (r, c', fast', attempts') /\
  raa_outcome (set1 lb) [la; la] [la] r.
Proof.
  apply C79_exchange_partial.
  - apply plain_oracle_ok.
  - intros w [<-|[<-|[]]]; discriminate.
  - apply as_new.
  - split; [apply set1_built|]. intros s [<-|[]]. split; [discriminate|intros [H|[]]; discriminate H].
  - change (length (l_tokens (set1 lb))) with 1. lia.
  - intros w [<-|[]]; discriminate.
  - intros w [<-|[]] [H|[]]; discriminate H.
  - intros s [<-|[]]. exists la. split; [left; reflexivity|]. right. intros [H|[]]; discriminate H.
Qed.
