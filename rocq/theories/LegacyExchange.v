(** * The older optimizer: choosing a token, exchanging one. *)
From Verif Require Import Base BaseLemmas LegacyModel LegacySpec LegacyTok PropLegacyTok LegacyOptModel LegacyOptProof
  PropLegacyCache LegacyBytesProof LegacyPairs LegacyValues PropLegacyBpe.
From Coq Require Import ZArith Sorted Permutation.

(** ** [add_token]: the candidate with the most occurrences *)
Lemma best_literal_fold s l : forall st, let r := fold_left (fun b i => let n := nth i (ls_literals s) 0 in if snd b <? n then (Some [n2b i], n) else b) l st in
  snd st <= snd r /\ (forall i, In i l -> nth i (ls_literals s) 0 <= snd r) /\
  (r = st \/ exists i, In i l /\ r = (Some [n2b i], nth i (ls_literals s) 0) /\ 0 < nth i (ls_literals s) 0).
Proof.
  induction l as [|i l IH]; intros st; cbn [fold_left].
  - split; [apply Nat.le_refl|]. split; [intros i []|left; reflexivity].
  - set (st' := let n := nth i (ls_literals s) 0 in if snd st <? n then (Some [n2b i], n) else st).
    destruct (IH st') as (H1 & H2 & H3). cbv zeta in *.
    set (r := fold_left _ l st') in *. clearbody r.
    assert (Hst : snd st <= snd st' /\ nth i (ls_literals s) 0 <= snd st' /\
       (st' = st \/ (st' = (Some [n2b i], nth i (ls_literals s) 0) /\ 0 < nth i (ls_literals s) 0))).
    { subst st'. cbv zeta. destruct (Nat.ltb_spec (snd st) (nth i (ls_literals s) 0)); cbn [snd].
      - repeat split; try lia. right. split; [reflexivity|lia].
      - repeat split; try lia. left. reflexivity. }
    destruct Hst as (S1 & S2 & S3). split; [lia|]. split.
    + intros j [<-|Hj]; [lia|apply H2; exact Hj].
    + destruct H3 as [->|(j & Hj & Er)].
      * destruct S3 as [->|(-> & Hp)]; [left; reflexivity|]. right. exists i. split; [left; reflexivity|]. auto.
      * right. exists j. split; [right; exact Hj|exact Er].
Qed.

Lemma best_literal_ok s : 
  (forall i, i < 256 -> nth i (ls_literals s) 0 <= snd (best_literal s)) /\
  (best_literal s = (None, 0) \/ exists i, i < 256 /\ best_literal s = (Some [n2b i], nth i (ls_literals s) 0) /\ 0 < nth i (ls_literals s) 0).
Proof.
  destruct (best_literal_fold s (seq 0 256) (None, 0)) as (_ & B2 & B3). split.
  - intros i Hi. apply B2. apply in_seq. lia.
  - destruct B3 as [B3|(i & Hi & B3)]; [left; exact B3|]. right. exists i. split; [apply in_seq in Hi; lia|exact B3].
Qed.

Lemma consider_fold ts l : forall a best vals,
  (forall kc, In kc l -> exists x, pair_value ts kc = Ret (x, snd kc) /\ sget vals x = None /\ 0 < snd kc) ->
  NoDup l -> (forall kc kc' x c c', In kc l -> In kc' l -> pair_value ts kc = Ret (x, c) -> pair_value ts kc' = Ret (x, c') -> kc = kc') ->
  exists a' best' vals', mfold (consider_pair ts) l (a, best, vals) = Ret (a', best', vals') /\ best <= best' /\
    (forall kc, In kc l -> snd kc <= best') /\
    ((a' = a /\ best' = best) \/ exists kc x, In kc l /\ pair_value ts kc = Ret (x, snd kc) /\ a' = Some x /\ best' = snd kc).
Proof.
  induction l as [|kc l IH]; intros a best vals H Hnd Hinj.
  - exists a, best, vals. split; [reflexivity|]. split; [apply Nat.le_refl|]. split; [intros kc []|left; auto].
  - apply NoDup_cons_iff in Hnd as (Hnin & Hnd). destruct (H kc (or_introl eq_refl)) as (x & Ev & Hx & Hp).
    cbn [mfold]. unfold consider_pair at 1. destruct (Nat.ltb_spec 0 (snd kc)); [|lia]. rewrite Ev. cbn [bind]. rewrite Hx.
    cbn [Nat.add]. cbv zeta.
    destruct (IH (if best <? snd kc then Some x else a) (if best <? snd kc then snd kc else best) (sinsert vals x (snd kc)))
      as (a' & best' & vals' & E & H1 & H2 & H3).
    + intros kc' Hin. destruct (H kc' (or_intror Hin)) as (x' & Ev' & Hx' & Hp'). exists x'. split; [exact Ev'|]. split; [|exact Hp'].
      rewrite sget_sinsert. destruct (bstr_eqb_spec x' x) as [->|_]; [|exact Hx'].
      exfalso. apply Hnin. rewrite (Hinj kc kc' x (snd kc) (snd kc')); auto; [left; reflexivity|right; exact Hin].
    + exact Hnd.
    + intros k1 k2 y c c' K1 K2. apply Hinj; right; assumption.
    + exists a', best', vals'. split.
      { destruct (best <? snd kc); exact E. }
      destruct (Nat.ltb_spec best (snd kc)) as [Hlt|Hge].
      * split; [lia|]. split; [intros k [<-|Hk]; [lia|apply H2; exact Hk]|]. right. destruct H3 as [(-> & ->)|(k & y & Hk & Ey & -> & ->)].
        -- exists kc, x. split; [left; reflexivity|auto].
        -- exists k, y. split; [right; exact Hk|auto].
      * split; [lia|]. split; [intros k [<-|Hk]; [lia|apply H2; exact Hk]|]. destruct H3 as [(-> & ->)|(k & y & Hk & Ey & -> & ->)].
        -- left; auto.
        -- right. exists k, y. split; [right; exact Hk|auto].
Qed.

Definition best_candidate (ts : lset) (samples : list bstr) (x : bstr) : Prop :=
  exists f n, (forall w, l_canonical ts (f w) w) /\ candidate ts f samples x n /\ forall y m, candidate ts f samples y m -> m <= n.

Lemma choose_ok o c ts : oracle_ok o -> l_built ts -> ~ In [] (l_strings ts) -> length (l_tokens ts) <= 256 * 256 ->
  good_samples (lc_samples c) ->
  (exists x c', choose_token o c ts = Ret (x, c') /\ lc_samples c' = lc_samples c /\ best_candidate ts (lc_samples c) x) \/
  (choose_token o c ts = Panic /\ forall w, In w (lc_samples c) -> In w (l_strings ts)).
Proof.
  intros Ho Hb Hn Hl Hs. pose proof (l_built_ok _ Hb) as Hok.
  destruct (tokenize_samples o (lc_calls c) ts true (lc_samples c) Ho Hok Hn Hs) as (f & s & Hf & E & T & _).
  unfold choose_token, get_stats_with_pairs. rewrite E. cbn [bind]. clear E.
  assert (Hlit : forall i, i < 256 -> forall n, n = nth i (ls_literals s) 0 -> 0 < n -> candidate ts f (lc_samples c) [n2b i] n).
  { intros i Hi n En Hp. assert (Ei : i = b2n (n2b i)) by (rewrite b2n_n2b_small by exact Hi; reflexivity). rewrite Ei in En.
    destruct (proj2 (literal_in ts Hl f (lc_samples c) s T (n2b i) n) (conj En Hp)) as (H1 & ->). apply cand_literal; exact H1. }
  destruct (best_literal_ok s) as (B2 & B3). destruct (best_literal s) as [a best]. cbn [snd] in B2.
  pose proof (o_iter_ok _ Ho (lc_calls c) (ls_pairs s)) as Hp. set (l := o_iter o (lc_calls c) (ls_pairs s)) in *. clearbody l.
  assert (Hin : forall kc, In kc l <-> In kc (ls_pairs s)).
  { intros kc; split; intros H; [eapply Permutation_in; eassumption|eapply Permutation_in; [apply Permutation_sym|]; eassumption]. }
  destruct (consider_fold ts l a best []) as (a' & best' & vals' & E & C1 & C2 & C3).
  { intros [k n] H. apply Hin in H. destruct (pairs_sound ts Hl f (lc_samples c) s Hf T k n H) as (_ & _ & x & y & _ & _ & _ & _ & Ev & _).
    exists (x ++ y). split; [exact Ev|]. split; [reflexivity|]. eapply lt_pairs_pos; eassumption. }
  { eapply Permutation_NoDup; [apply Permutation_sym; exact Hp|]. eapply NoDup_map_inv. apply (lt_pairs_nodup _ _ _ _ _ T). }
  { intros [k n] [k' n'] z c1 c2 H H' Ev Ev'. apply Hin in H, H'.
    destruct (pairs_sound ts Hl f (lc_samples c) s Hf T k n H) as (i & j & x & y & Hij & Ek & Hx & Hy & E1 & D1).
    destruct (pairs_sound ts Hl f (lc_samples c) s Hf T k' n' H') as (i' & j' & x' & y' & Hij' & Ek' & Hx' & Hy' & E2 & D2).
    rewrite E1 in Ev. rewrite E2 in Ev'. injection Ev as <- <-. injection Ev' as Ef <-. rewrite Ef in D2, E2.
    pose proof (candidate_fun ts Hok Hn f (lc_samples c) Hf _ _ _ D1 D2) as <-.
    destruct (adj_split ts f (lc_samples c) Hf i j Hij) as (u & b & w & Hc & _).
    destruct (adj_split ts f (lc_samples c) Hf i' j' Hij') as (u' & b' & w' & Hc' & _).
    destruct (pair_unique ts Hok _ _ _ _ _ _ _ _ _ _ _ _ _ _ Hc Hc' Hx Hy Hx' Hy' (eq_sym Ef)) as [<- <-]. congruence. }
  cbv beta iota. match goal with |- context [mfold ?u ?v ?d] => replace (mfold u v d) with (Ret (a', best', vals')) by (symmetry; exact E) end. cbn [bind].
  assert (Hmax : forall y m, candidate ts f (lc_samples c) y m -> m <= best').
  { intros y m Hc. destruct (Nat.eq_dec (length y) 1) as [Hy|Hy].
    - destruct (candidate_length ts Hn Hl f (lc_samples c) y m Hc Hy) as (b & -> & Hb'). apply (literal_in ts Hl f (lc_samples c) s T b m) in Hb' as (-> & _).
      etransitivity; [|exact C1]. apply B2. apply b2n_lt.
    - destruct (candidate_pair ts Hok Hn Hl f (lc_samples c) s Hf T y m Hc Hy) as (i & j & _ & _ & Hk). apply (C2 (pair_key i j, m)). apply Hin. exact Hk. }
  assert (Ha : (exists x, a' = Some x /\ candidate ts f (lc_samples c) x best') \/ (a' = None /\ best' = 0)).
  { destruct C3 as [(-> & ->)|([k n] & x & Hk & Ev & -> & ->)].
    - destruct B3 as [B3|(i & Hi & B3 & Hpos)].
      + injection B3 as -> ->. right; auto.
      + injection B3 as -> ->. left. exists [n2b i]. split; [reflexivity|]. apply Hlit; [exact Hi|reflexivity|exact Hpos].
    - left. exists x. split; [reflexivity|]. apply Hin in Hk.
      destruct (pairs_sound ts Hl f (lc_samples c) s Hf T k n Hk) as (_ & _ & x' & y' & _ & _ & _ & _ & Ev' & D).
      rewrite Ev' in Ev. injection Ev as <-. exact D. }
  destruct Ha as [(x & -> & Hx)|(-> & ->)].
  - left. cbn [unwrap bind]. exists x. eexists. split; [reflexivity|]. split; [reflexivity|]. exists f, best'. auto.
  - right. split; [reflexivity|]. intros w Hw.
    destruct (in_dec (list_eq_dec Byte.byte_eq_dec) w (l_strings ts)) as [Hi|Hni]; [exact Hi|]. exfalso.
    destruct (candidate_exists ts f (lc_samples c) Hf w Hw (Hs w Hw) Hni) as (x & n & Hc).
    pose proof (Hmax x n Hc). destruct (candidate_new ts Hn f (lc_samples c) Hf x n Hc) as (_ & _ & Hpos). lia.
Qed.

(** ** The strings to remove *)
Lemma pick_perm {A} o k keys (l : list A) : oracle_ok o -> length keys = length l ->
  exists r, pick l (o_sort o k keys) = Ret r /\ Permutation r l.
Proof.
  intros Ho Hlen. destruct (o_sort_ok _ Ho k keys) as (Hp & _). rewrite Hlen in Hp. set (order := o_sort o k keys) in *.
  destruct (pick_ok l order) as (r & E & F).
  { intros i Hi. apply (Permutation_in _ Hp), in_seq in Hi. lia. }
  exists r. split; [exact E|]. destruct l as [|d l'] eqn:El.
  { apply Permutation_length in Hp. cbn in Hp. destruct order; [inversion F; constructor|discriminate Hp]. }
  rewrite <- El in *. rewrite (forall2_map _ (fun i => nth i l d) _ _ F).
  - apply Permutation_trans with (map (fun i => nth i l d) (seq 0 (length l))); [apply Permutation_map; exact Hp|].
    rewrite nth_seq. reflexivity.
  - intros i a Ha. symmetry. apply nth_error_nth; exact Ha.
Qed.

Definition removable (ts : lset) : list bstr := map lt_string (filter (fun t => negb (lt_mandatory t)) (l_tokens ts)).

Lemma removable_in ts s : In s (removable ts) <-> exists t, In t (l_tokens ts) /\ lt_string t = s /\ lt_mandatory t = false.
Proof.
  unfold removable. rewrite in_map_iff. split.
  - intros (t & Es & H). apply filter_In in H as (H1 & H2). exists t. apply negb_true_iff in H2. auto.
  - intros (t & H & Es & Hm). exists t. split; [exact Es|]. apply filter_In. rewrite Hm. auto.
Qed.

Lemma raa_strings_ok o k ts s attempts : oracle_ok o -> length (ls_tokens s) = length (l_tokens ts) ->
  exists strs, raa_strings o k ts s attempts = Ret strs /\ Permutation strs (removable ts).
Proof.
  intros Ho Hlen. unfold raa_strings.
  match goal with |- context [mmap ?g (enum (l_tokens ts))] => destruct (mmap_total g (enum (l_tokens ts))) as (keys & E) end.
  { intros [i t] Hit. apply in_enum in Hit. cbn [fst snd]. assert (i < length (ls_tokens s)) by (rewrite Hlen; apply nth_error_Some; congruence).
    unfold idx. destruct (nth_error (ls_tokens s) i) as [n|] eqn:En; [cbn [unwrap bind]; eauto|apply nth_error_None in En; lia]. }
  rewrite E. cbn [bind]. assert (Hk : length keys = length (l_tokens ts)).
  { rewrite (mmap_length _ _ _ E). unfold enum. apply enum_from_length. }
  destruct (pick_perm o k keys (l_tokens ts) Ho Hk) as (r & Er & Hp). rewrite Er. cbn [bind].
  exists (map lt_string (filter (fun t => negb (lt_mandatory t)) r)). split; [reflexivity|].
  apply Permutation_map, filter_perm, Hp.
Qed.

(** ** One exchange *)

(** [ts'] is [ts] with [x], which is not a token, in the place of the token [s], which may be removed. *)
Definition replaced (ts : lset) (s x : bstr) (ts' : lset) : Prop :=
  In (mkLtok s false) (l_tokens ts) /\ ~ In x (l_strings ts) /\ l_enc ts' = l_enc ts /\
  l_tokens ts' = filter (fun t => negb (bstr_eqb (lt_string t) s)) (l_tokens ts) ++ [mkLtok x false].

(** [x] is a candidate of the most occurrences when [s] has been removed. *)
Definition best_without (ts : lset) (s : bstr) (samples : list bstr) (x : bstr) : Prop :=
  exists ts1, l_remove_token ts s = Ret ts1 /\ best_candidate ts1 samples x.

Definition no_zero (l : list bstr) : Prop := forall w, In w l -> ~ In (n2b 0) w.

Section Exchange.
Variables (o : oracle) (ts : lset) (e : lenc) (cost : nat).
Hypothesis Ho : oracle_ok o.
Hypothesis Hc : clean ts.
Hypothesis He : l_enc ts = e.
Hypothesis Hl : length (l_tokens ts) <= 256 * 256.

Lemma filter_length_le {A} (p : A -> bool) l : length (filter p l) <= length l.
Proof. induction l as [|a l IH]; cbn; [lia|]. destruct (p a); cbn; lia. Qed.

Lemma without s : In s (removable ts) -> exists ts1, l_remove_token ts s = Ret ts1 /\ clean ts1 /\ l_enc ts1 = e /\
  length (l_tokens ts1) <= 256 * 256 /\ In (mkLtok s false) (l_tokens ts) /\
  l_tokens ts1 = filter (fun t => negb (bstr_eqb (lt_string t) s)) (l_tokens ts).
Proof.
  intros Hs. apply removable_in in Hs as (t & Ht & Es & Hm). destruct (clean_facts ts Hc) as (Hok & Hn & _).
  destruct (remove_ok ts s t Hok Ht Es Hm) as (ts1 & E). destruct (remove_tokens _ _ _ Hok E) as (T1 & E1).
  exists ts1. split; [exact E|]. split; [|split; [congruence|]; split; [|split; [|exact T1]]].
  - split; [eapply lb_remove; [apply Hc|exact E]|]. intros x Hx. apply Hc. unfold l_strings in *. rewrite T1 in Hx.
    apply in_map_iff in Hx as (u & <- & Hu). apply filter_In in Hu as (Hu & _). apply in_map; exact Hu.
  - rewrite T1. pose proof (filter_length_le (fun t => negb (bstr_eqb (lt_string t) s)) (l_tokens ts)). lia.
  - destruct t as [s' m]. cbn in Es, Hm. subst. exact Ht.
Qed.

Lemma with_new s ts1 x n f samples : l_remove_token ts s = Ret ts1 -> clean ts1 ->
  In (mkLtok s false) (l_tokens ts) -> no_zero samples ->
  l_tokens ts1 = filter (fun t => negb (bstr_eqb (lt_string t) s)) (l_tokens ts) ->
  (forall w, l_canonical ts1 (f w) w) -> candidate ts1 f samples x n -> x <> s ->
  exists ts', l_add_token ts1 x = Ret ts' /\ clean ts' /\ l_enc ts' = l_enc ts /\ replaced ts s x ts'.
Proof.
  intros E Hc1 Hs Hz T1 Hf Hx Hne. destruct (clean_facts ts1 Hc1) as (Hok1 & Hn1 & _).
  destruct (clean_facts ts Hc) as (Hok & _ & _). destruct (remove_tokens _ _ _ Hok E) as (_ & E1).
  destruct (candidate_new ts1 Hn1 f samples Hf x n Hx) as (Hnew & Hne' & _).
  assert (Ea : l_add_token ts1 x = Ret (push_token ts1 x false)).
  { unfold l_add_token. rewrite (proj2 (indexes_None _ _ _ Hok1) Hnew). reflexivity. }
  exists (push_token ts1 x false). split; [exact Ea|]. split; [|split; [cbn; exact E1|]].
  - split; [eapply lb_add; [apply Hc1|exact Ea]|]. intros y Hy. unfold l_strings, push_token in Hy. cbn in Hy. rewrite map_app in Hy.
    apply in_app_or in Hy as [Hy|[<-|[]]]; [apply Hc1; exact Hy|]. cbn [lt_string]. split; [exact Hne'|].
    intros Hin. destruct (candidate_bytes ts1 f samples Hf x n _ Hx Hin) as (w & Hw & Hw'). exact (Hz w Hw Hw').
  - split; [exact Hs|]. split; [|split; [cbn; exact E1|cbn; rewrite T1; reflexivity]].
    intros Hin. apply Hnew. unfold l_strings in *. rewrite T1. apply in_map_iff in Hin as (u & Eu & Hu). apply in_map_iff.
    exists u. split; [exact Eu|]. apply filter_In. split; [exact Hu|]. rewrite Eu. apply negb_true_iff, bstr_eqb_neq. exact Hne.
Qed.

(** No fast sample list has all its samples among the tokens that stay. *)
Definition enough (samples : list bstr) : Prop :=
  forall s, In s (removable ts) -> exists w, In w samples /\ (w = s \/ ~ In w (l_strings ts)).

Lemma raa_loop_ok strs : forall tries c fast attempts, cache_good e c -> good_samples (lc_samples fast) -> no_zero (lc_samples fast) ->
  enough (lc_samples fast) -> incl strs (removable ts) ->
  exists r c' fast' attempts', raa_loop o ts cost strs tries c fast attempts = Ret (r, c', fast', attempts') /\
    cache_good e c' /\ lc_samples c' = lc_samples c /\ lc_samples fast' = lc_samples fast /\
    match r with
    | RGiveUp => 512 < tries + length strs
    | RNone => forall s, In s strs -> exists x, best_without ts s (lc_samples fast) x /\
        (x = s \/ exists ts', replaced ts s x ts' /\ clean ts' /\ forall k, l_costs ts' (lc_samples c) k -> cost <= k)
    | RSome ts' => exists s x, In s strs /\ best_without ts s (lc_samples fast) x /\ replaced ts s x ts' /\ clean ts' /\
        forall k, l_costs ts' (lc_samples c) k -> k < cost
    end.
Proof.
  induction strs as [|s strs IH]; intros tries c fast attempts Hg Hs Hz Hen Hincl; cbn [raa_loop].
  - exists RNone, c, fast, attempts. split; [reflexivity|]. split; [exact Hg|]. split; [reflexivity|]. split; [reflexivity|]. intros s [].
  - destruct ((512 <=? tries) && (0 <? attempts_of attempts s)) eqn:Eg.
    { apply andb_prop in Eg as (Eg & _). apply Nat.leb_le in Eg. do 4 eexists. split; [reflexivity|].
      split; [exact Hg|]. split; [reflexivity|]. split; [reflexivity|]. cbn. lia. }
    destruct (without s (Hincl s (or_introl eq_refl))) as (ts1 & E1 & Hc1 & He1 & Hl1 & Hs1 & T1). rewrite E1. cbn [bind].
    destruct (clean_facts ts1 Hc1) as (Hok1 & Hn1 & _).
    destruct (choose_ok o fast ts1 Ho (proj1 Hc1) Hn1 Hl1 Hs) as [(x & fast1 & Ex & Ef & Hx)|(_ & Hall)].
    2:{ exfalso. destruct (Hen s (Hincl s (or_introl eq_refl))) as (w & Hw & Hws). specialize (Hall w Hw). unfold l_strings in Hall. rewrite T1 in Hall.
        apply in_map_iff in Hall as (u & Eu & Hu). apply filter_In in Hu as (Hu & Hu'). apply negb_true_iff, bstr_eqb_neq in Hu'.
        destruct Hws as [-> |Hws]; [congruence|]. apply Hws. rewrite <- Eu. apply in_map; exact Hu. }
    rewrite Ex. cbn [bind].
    assert (Hbw : best_without ts s (lc_samples fast) x) by (exists ts1; auto).
    destruct (bstr_eqb_spec x s) as [->|Hne].
    { destruct (IH (S tries) c fast1 (sinsert attempts s (S (attempts_of attempts s)))) as (r & c' & fast' & att' & E & H1 & H2 & H3 & H4).
      { exact Hg. } { rewrite Ef; exact Hs. } { rewrite Ef; exact Hz. } { rewrite Ef; exact Hen. } { intros y Hy; apply Hincl; right; exact Hy. }
      rewrite Ef in *. exists r, c', fast', att'. split; [exact E|]. split; [exact H1|]. split; [exact H2|]. split; [exact H3|].
      destruct r as [| |ts'].
      - cbn [length] in *. lia.
      - intros y [<-|Hy]; [exists s; auto|apply H4; exact Hy].
      - destruct H4 as (s' & x' & Hs' & H4). exists s', x'. split; [right; exact Hs'|exact H4]. }
    destruct Hx as (f & n & Hf & Hx & Hbest).
    destruct (with_new s ts1 x n f (lc_samples fast) E1 Hc1 Hs1 Hz T1 Hf Hx Hne) as (ts' & Ea & Hc' & He' & Hrep).
    rewrite Ea. cbn [bind].
    destruct (get_stats_ok o e c ts' Ho Hg Hc' (eq_trans He' He)) as (_ & _ & st & c1 & Est & _ & _ & _ & _ & _ & Hcost & Hg1 & Hsam1).
    rewrite Est. cbn [bind]. destruct (Nat.ltb_spec (l_cost st) cost) as [Hlt|Hge].
    { do 4 eexists. split; [reflexivity|]. split; [exact Hg1|]. split; [exact Hsam1|]. split; [exact Ef|].
      exists s, x. split; [left; reflexivity|]. split; [exact Hbw|]. split; [exact Hrep|]. split; [exact Hc'|].
      intros k Hk. rewrite (l_costs_unique _ _ _ _ Hk Hcost). exact Hlt. }
    destruct (IH (S tries) c1 fast1 (sinsert attempts s (S (attempts_of attempts s)))) as (r & c' & fast' & att' & E & H1 & H2 & H3 & H4).
    { exact Hg1. } { rewrite Ef; exact Hs. } { rewrite Ef; exact Hz. } { rewrite Ef; exact Hen. } { intros y Hy; apply Hincl; right; exact Hy. }
    rewrite Ef, Hsam1 in *. exists r, c', fast', att'. split; [exact E|]. split; [exact H1|]. split; [exact H2|]. split; [exact H3|].
    destruct r as [| |ts2].
    + cbn [length] in *. lia.
    + intros y [<-|Hy]; [|apply H4; exact Hy]. exists x. split; [exact Hbw|]. right. exists ts'. split; [exact Hrep|]. split; [exact Hc'|].
      intros k Hk. rewrite (l_costs_unique _ _ _ _ Hk Hcost). exact Hge.
    + destruct H4 as (s' & x' & Hs' & H4). exists s', x'. split; [right; exact Hs'|exact H4].
Qed.
End Exchange.
