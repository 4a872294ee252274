(** * C77: the cache of the older optimizer. *)
From Verif Require Import Base BaseLemmas SortLemmas LegacyModel LegacySpec LegacyTok PropLegacyTok LegacyOptModel LegacyOptProof.
From Coq Require Import ZArith Sorted Permutation.

(** ** A choice that is always possible: one thread, the order of the list, the
    stable sort. *)
Definition plain_oracle : oracle :=
  mkOracle (fun _ l => [l]) (fun _ l => l)
    (fun _ keys => stable_sort (fun i j => (nth i keys 0 <=? nth j keys 0)%Z) (seq 0 (length keys))).

Lemma plain_oracle_ok : oracle_ok plain_oracle.
Proof.
  constructor; cbn.
  - intros _ l. rewrite app_nil_r. reflexivity.
  - reflexivity.
  - intros _ l. split; [apply sort_perm|].
    assert (G : StronglySorted (fun a b => (nth a l 0 <=? nth b l 0)%Z = true)
                  (stable_sort (fun i j => (nth i l 0 <=? nth j l 0)%Z) (seq 0 (length l)))).
    { apply sort_sorted.
      - intros a b. destruct (Z.leb_spec (nth a l 0) (nth b l 0))%Z; [left; reflexivity|right]. apply Z.leb_le. lia.
      - intros a b d H1 H2. apply Z.leb_le in H1, H2. apply Z.leb_le. lia. }
    clear - G. induction G as [|a r _ IH H]; constructor; [exact IH|]. eapply Forall_impl; [|exact H]. intros b Hb.
    apply Z.leb_le. exact Hb.
Qed.

(** ** The states of a cache: a sequence of questions about token sets with [P] *)
Inductive asked (o : oracle) (P : lset -> Prop) (samples : list bstr) : lcache -> Prop :=
| as_new : asked o P samples (lcache_new samples)
| as_get c ts s c' : asked o P samples c -> P ts -> l_get_stats o c ts = Ret (s, c') -> asked o P samples c'
| as_pairs c ts s c' : asked o P samples c -> P ts -> get_stats_with_pairs o c ts = Ret (s, c') -> asked o P samples c'.

Lemma asked_good o e samples c : oracle_ok o -> good_samples samples ->
  asked o (fun ts => clean ts /\ l_enc ts = e) samples c -> cache_good e c /\ lc_samples c = samples.
Proof.
  intros Ho Hs. induction 1 as [|c ts s c' _ [IH1 IH2] [Hc He] E|c ts s c' _ [IH1 IH2] [Hc He] E].
  - split; [apply cache_new_good; exact Hs|reflexivity].
  - destruct (get_stats_ok o e c ts Ho IH1 Hc He) as (ts' & f & s1 & c1 & E1 & _ & _ & _ & _ & _ & _ & Hg & Hl).
    rewrite E in E1. injection E1 as <- <-. split; [exact Hg|congruence].
  - destruct (with_pairs_ok o e c ts Ho IH1 Hc He) as (f & s1 & c1 & E1 & _ & _ & Hg & Hl).
    rewrite E in E1. injection E1 as <- <-. split; [exact Hg|congruence].
Qed.

(** ** Counts by string *)
Definition count_of (ts : lset) (f : bstr -> list tidx) (samples : list bstr) (x : bstr) : nat :=
  match sget (l_by_str ts) x with Some i => count_occ tidx_eq_dec (flat_map f samples) (LTok i) | None => 0 end.

Lemma tokens_by_string ts ps f samples s : l_ok ts -> l_total ts ps f samples s ->
  ls_tokens s = map (count_of ts f samples) (l_strings ts).
Proof.
  intros Hok T. apply (nth_ext _ _ 0 0).
  - rewrite map_length. unfold l_strings. rewrite map_length. apply (lt_tokens_length _ _ _ _ _ T).
  - intros i Hi. rewrite (lt_tokens _ _ _ _ _ T). rewrite (lt_tokens_length _ _ _ _ _ T) in Hi.
    destruct (nth_error (l_strings ts) i) as [x|] eqn:E.
    + rewrite (nth_error_nth (map _ _) i 0 (map_nth_error (count_of ts f samples) i _ E)).
      unfold count_of. apply Hok in E. rewrite E. reflexivity.
    + apply nth_error_None in E. unfold l_strings in E. rewrite map_length in E. lia.
Qed.

Lemma combine_map {A B} (g : A -> B) l : combine l (map g l) = map (fun x => (x, g x)) l.
Proof. induction l as [|a l IH]; cbn; [reflexivity|]. rewrite IH. reflexivity. Qed.

Lemma count_occ_map_tr ts ts' xs x y : l_ok ts -> l_ok ts' -> Permutation (l_strings ts) (l_strings ts') ->
  (forall z, In z xs -> exists u, l_piece_string ts z = Some u) -> l_piece_string ts x = Some y ->
  count_occ tidx_eq_dec (map (tr ts ts') xs) (tr ts ts' x) = count_occ tidx_eq_dec xs x.
Proof.
  intros Hok Hok' Hp Hx Hy. induction xs as [|z xs IH]; [reflexivity|]. cbn [map count_occ].
  rewrite IH by (intros z' Hz'; apply Hx; right; exact Hz').
  destruct (Hx z (or_introl eq_refl)) as (u & Hu).
  destruct (tidx_eq_dec (tr ts ts' z) (tr ts ts' x)) as [E|Hne], (tidx_eq_dec z x) as [E'|Hne']; try reflexivity.
  - exfalso. apply Hne'. rewrite <- (tr_inverse ts ts' Hok Hok' Hp z u Hu), <- (tr_inverse ts ts' Hok Hok' Hp x y Hy), E. reflexivity.
  - subst. contradiction.
Qed.

Lemma flat_map_map_tr {A B C} (h : B -> C) (g : A -> list B) l : flat_map (fun w => map h (g w)) l = map h (flat_map g l).
Proof. induction l as [|a l IH]; cbn; [reflexivity|]. rewrite map_app, IH. reflexivity. Qed.

(** The same strings: the same statistics, up to the order of the tokens. *)
Lemma same_stats ts ts' f f' samples s s' : l_ok ts -> l_ok ts' -> ~ In [] (l_strings ts) -> l_enc ts = l_enc ts' ->
  Permutation (l_strings ts) (l_strings ts') ->
  (forall w, l_canonical ts (f w) w) -> (forall w, l_canonical ts' (f' w) w) ->
  l_total ts false f samples s -> l_total ts' false f' samples s' ->
  ls_lit_cost s = ls_lit_cost s' /\ ls_literals s = ls_literals s' /\ ls_scanned s = ls_scanned s' /\ ls_pairs s = ls_pairs s' /\
  Permutation (combine (l_strings ts') (ls_tokens s')) (combine (l_strings ts) (ls_tokens s)).
Proof.
  intros Hok Hok' Hn He Hp Hf Hf' T T'.
  assert (Hn' : ~ In [] (l_strings ts')) by (intros H; apply Hn; eapply Permutation_in; [apply Permutation_sym|]; eassumption).
  assert (Ef : forall w, f' w = map (tr ts ts') (f w)).
  { intros w. apply (canonical_unique ts' Hok' Hn' _ _ w (Hf' w)). apply tr_canonical; auto. }
  assert (Efl : flat_map f' samples = map (tr ts ts') (flat_map f samples)).
  { rewrite (flat_map_ext _ _ Ef). apply flat_map_map_tr. }
  assert (Hpieces : forall z, In z (flat_map f samples) -> exists u, l_piece_string ts z = Some u).
  { intros z Hz. apply in_flat_map in Hz as (w & _ & Hz). pose proof (proj1 (proj1 (Hf w))) as Hs. clear - Hs Hz.
    induction Hs as [|x xs u r Hx _ IH]; [destruct Hz|]. destruct Hz as [<-|Hz]; [eauto|auto]. }
  split; [rewrite (lt_lit_cost _ _ _ _ _ T), (lt_lit_cost _ _ _ _ _ T'), He; reflexivity|]. split.
  { apply (nth_ext _ _ 0 0).
    - rewrite (lt_literals_length _ _ _ _ _ T), (lt_literals_length _ _ _ _ _ T'). reflexivity.
    - intros i Hi. rewrite (lt_literals_length _ _ _ _ _ T) in Hi. assert (Ei : i = b2n (n2b i)) by (rewrite b2n_n2b, Nat.mod_small; auto). rewrite Ei.
      rewrite (lt_literals _ _ _ _ _ T), (lt_literals _ _ _ _ _ T'), Efl.
      symmetry. apply (count_occ_map_tr ts ts' _ (LLit (n2b i)) [n2b i]); auto. }
  split; [rewrite (lt_scanned _ _ _ _ _ T), (lt_scanned _ _ _ _ _ T'); reflexivity|]. split.
  { assert (Z : forall t g r u, l_total t false g r u -> ls_pairs u = []).
    { intros t g r u U. destruct (ls_pairs u) as [|[k n] l] eqn:E; [reflexivity|]. exfalso.
      pose proof (lt_pairs _ _ _ _ _ U k) as H. rewrite E in H. unfold key_get in H. cbn [filter fst] in H.
      rewrite N.eqb_refl in H. cbn [map snd] in H. change (sum (?a :: ?r)) with (a + sum r) in H.
      pose proof (lt_pairs_pos _ _ _ _ _ U k n) as H'. rewrite E in H'. specialize (H' (or_introl eq_refl)). lia. }
    rewrite (Z _ _ _ _ T), (Z _ _ _ _ T'). reflexivity. }
  rewrite (tokens_by_string _ _ _ _ _ Hok T), (tokens_by_string _ _ _ _ _ Hok' T'), !combine_map.
  rewrite (Permutation_map _ (Permutation_sym Hp)).
  apply Permutation_refl' . apply map_ext_in. intros x Hx. f_equal. unfold count_of.
  apply (indexes_In _ _ _ Hok) in Hx as (i & Hi). pose proof (proj1 (Hok x i) Hi) as Hnth. rewrite Hi.
  pose proof (same_incl ts ts' Hp x (nth_error_In _ _ Hnth)) as Hx'. apply (indexes_In _ _ _ Hok') in Hx' as (j & Hj). rewrite Hj.
  rewrite Efl. rewrite <- (count_occ_map_tr ts ts' (flat_map f samples) (LTok i) x); auto.
  cbn [tr]. rewrite Hnth, Hj. reflexivity.
Qed.

(** ** C77 *)

(** Tokens without zero bytes, one encoding of literals: the cache answers as a
    fresh tokenization would, except that the counts of the tokens may be listed in
    the order of another token set with the same strings. *)
Theorem C77_cache_partial o e samples c ts : oracle_ok o -> good_samples samples ->
  asked o (fun ts => clean ts /\ l_enc ts = e) samples c -> clean ts -> l_enc ts = e ->
  exists s c', l_get_stats o c ts = Ret (s, c') /\
    forall parts, Permutation (concat parts) samples ->
    exists t strings, l_tokenize ts false parts = Ret t /\ l_cost s = l_cost t /\
      ls_lit_cost s = ls_lit_cost t /\ ls_literals s = ls_literals t /\ ls_scanned s = ls_scanned t /\ ls_pairs s = ls_pairs t /\
      Permutation strings (l_strings ts) /\
      Permutation (combine strings (ls_tokens s)) (combine (l_strings ts) (ls_tokens t)).
Proof.
  intros Ho Hs Ha Hc He. destruct (asked_good o e samples c Ho Hs Ha) as (Hg & El).
  destruct (get_stats_ok o e c ts Ho Hg Hc He) as (ts' & f & s & c' & E & Hc' & He' & Hp & Hf & T & Hcost & _).
  rewrite El in *. exists s, c'. split; [exact E|]. intros parts Hparts.
  destruct (clean_facts ts Hc) as (Hok & Hn & _). destruct (clean_facts ts' Hc') as (Hok' & Hn' & _).
  destruct (l_tokenize_ok ts Hok Hn) as (g & Hgf & H). destruct (H false parts) as (t & Et & Tt).
  { intros w Hw. apply Hs. eapply Permutation_in; [exact Hparts|exact Hw]. }
  pose proof (l_total_perm _ _ _ _ _ _ Hparts Tt) as Tt'.
  destruct (same_stats ts ts' g f samples t s) as (A1 & A2 & A3 & A4 & A5); auto; [congruence|].
  exists t, (l_strings ts'). split; [exact Et|]. split.
  { apply (l_costs_unique ts samples); [exact Hcost|]. exists g. split; [intros w; apply (Hgf w)|].
    eapply l_cost_total; [exact Tt'|]. intros w; apply (Hgf w). }
  repeat split; auto. apply Permutation_sym; exact Hp.
Qed.

(** ** It is false in general *)
Lemma cheap_single ts xs w : l_ok ts -> ~ In [] (l_strings ts) -> w <> [] -> l_segments ts xs w ->
  l_seg_cost (l_enc ts) xs <= 1 -> exists i, xs = [LTok i] /\ nth_error (l_strings ts) i = Some w.
Proof.
  intros Hok Hn Hw H Hc. destruct H as [|x xs s r Hx Hr]; [congruence|].
  unfold l_seg_cost in Hc. cbn [map] in Hc. change (sum (?a :: ?r)) with (a + sum r) in Hc. fold (l_seg_cost (l_enc ts) xs) in Hc.
  destruct x as [i|b|]; [|pose proof (literal_cost_pos (l_enc ts)); cbn in Hc; lia|discriminate].
  destruct Hr as [|x xs s' r Hx' Hr].
  - exists i. split; [reflexivity|]. rewrite app_nil_r. exact Hx.
  - exfalso. unfold l_seg_cost in Hc. cbn [map l_piece_cost] in Hc. change (sum (?a :: ?r)) with (a + sum r) in Hc.
    destruct x as [j|b|]; [|pose proof (literal_cost_pos (l_enc ts))|discriminate]; cbn [l_piece_cost] in Hc; lia.
Qed.

Lemma single_token ts i w : nth_error (l_strings ts) i = Some w -> l_segments ts [LTok i] w /\ l_seg_cost (l_enc ts) [LTok i] = 1.
Proof.
  intros H. split; [|reflexivity]. rewrite <- (app_nil_r w). constructor; [exact H|constructor].
Qed.

(** tokenizing a sample that is a token *)
Lemma tokenize_token ts i w : l_built ts -> ~ In [] (l_strings ts) -> nth_error (l_strings ts) i = Some w ->
  exists s, l_tokenize ts false [[w]] = Ret s /\ nth i (ls_tokens s) 0 = 1 /\ (forall j, j <> i -> nth j (ls_tokens s) 0 = 0) /\
    l_cost s = 1.
Proof.
  intros Hb Hn Hi. assert (Hw : w <> []) by (intros ->; apply Hn; eapply nth_error_In; exact Hi).
  destruct (proj2 (C76_legacy_tokenizer ts Hb) Hn) as (f & Hf & H). destruct (H false [[w]]) as (s & E & T & C).
  { cbn. intros x [<-|[]]. exact Hw. }
  destruct (Hf w) as (((Hseg & Hmin) & _) & _). destruct (single_token ts i w Hi) as (H1 & H2).
  destruct (cheap_single ts (f w) w (l_built_ok ts Hb) Hn Hw Hseg) as (j & Ej & Hj).
  { rewrite <- H2. apply Hmin; exact H1. }
  assert (j = i) as ->. { pose proof (l_built_ok ts Hb w) as G. apply G in Hi, Hj. congruence. }
  exists s. split; [exact E|]. repeat split.
  - rewrite (lt_tokens _ _ _ _ _ T). cbn [concat app flat_map]. rewrite Ej. cbn. destruct (tidx_eq_dec _ _); congruence.
  - intros j Hne. rewrite (lt_tokens _ _ _ _ _ T). cbn [concat app flat_map]. rewrite Ej. cbn. destruct (tidx_eq_dec _ _); congruence.
  - rewrite C. cbn [concat app map]. rewrite Ej, H2. reflexivity.
Qed.

Definition set2 (x y : bstr) : lset :=
  mkLset [mkLtok x false; mkLtok y false] (sinsert (sinsert [] x 0) y 1) LDist8.
Definition set1 (x : bstr) : lset := mkLset [mkLtok x false] (sinsert [] x 0) LDist8.

Lemma set1_built x : l_built (set1 x).
Proof. apply (lb_add (mkLset [] [] LDist8) x); [|reflexivity]. apply (lb_new LDist8). reflexivity. Qed.

Lemma set2_built x y : x <> y -> l_built (set2 x y).
Proof.
  intros H. apply (lb_add (set1 x) y); [apply set1_built|]. unfold l_add_token, set1, set2. cbn [l_by_str].
  rewrite sget_sinsert. destruct (bstr_eqb_spec y x); [congruence|]. reflexivity.
Qed.

Lemma ask_twice o samples ts ts' s : l_built ts -> l_key ts = l_key ts' -> o_dist o 0 samples = [samples] ->
  l_tokenize ts false [samples] = Ret s ->
  exists c, asked o l_built samples c /\ l_get_stats o c ts' = Ret (no_pairs s, c).
Proof.
  intros Hb Hk Ho E. set (c := mkLcache samples (sinsert [] (l_key ts) (no_pairs s)) 1). exists c. split.
  - apply (as_get o l_built samples (lcache_new samples) ts s c); [constructor|exact Hb|].
    unfold l_get_stats, lcache_new. cbn [lc_map sget lc_calls lc_samples]. rewrite Ho, E. reflexivity.
  - unfold l_get_stats, c. cbn [lc_map]. rewrite sget_sinsert, <- Hk, (proj2 (bstr_eqb_eq _ _) eq_refl). reflexivity.
Qed.

Definition la : bstr := [n2b 97].
Definition lb : bstr := [n2b 98].
Definition lzero : bstr := [n2b 97; n2b 0; n2b 98].

(** The two ways in which the answer of the cache differs from that of a
    tokenization: the counts of [a], [b] are those of [b], [a]; and the token
    a\0b is taken for the two tokens a and b. *)
Theorem C77_cache_refuted :
  (exists o samples c ts s c' t, oracle_ok o /\ good_samples samples /\ asked o l_built samples c /\ l_built ts /\
     l_get_stats o c ts = Ret (s, c') /\ l_tokenize ts false [samples] = Ret t /\ ls_tokens s <> ls_tokens t) /\
  (exists o samples c ts s c' t, oracle_ok o /\ good_samples samples /\ asked o l_built samples c /\ l_built ts /\
     l_get_stats o c ts = Ret (s, c') /\ l_tokenize ts false [samples] = Ret t /\ l_cost s < l_cost t).
Proof.
  split.
  - destruct (tokenize_token (set2 la lb) 0 la) as (s & E & H0 & H1 & _).
    { apply set2_built. discriminate. } { cbn. intros [H|[H|[]]]; discriminate H. } { reflexivity. }
    destruct (tokenize_token (set2 lb la) 1 la) as (t & Et & G1 & _).
    { apply set2_built. discriminate. } { cbn. intros [H|[H|[]]]; discriminate H. } { reflexivity. }
    destruct (ask_twice plain_oracle [la] (set2 la lb) (set2 lb la) s) as (c & Hc & Eg);
      [apply set2_built; discriminate|reflexivity|reflexivity|exact E|].
    exists plain_oracle, [la], c, (set2 lb la), (no_pairs s), c, t.
    split; [apply plain_oracle_ok|]. split; [intros w [<-|[]]; discriminate|]. split; [exact Hc|].
    split; [apply set2_built; discriminate|]. split; [exact Eg|]. split; [exact Et|].
    cbn [no_pairs ls_tokens]. intros Heq. specialize (H1 1). rewrite Heq, G1 in H1. specialize (H1 ltac:(lia)). discriminate H1.
  - destruct (tokenize_token (set1 lzero) 0 lzero) as (s & E & _ & _ & Hs).
    { apply set1_built. } { cbn. intros [H|[]]; discriminate H. } { reflexivity. }
    assert (Hb : l_built (set2 la lb)) by (apply set2_built; discriminate).
    assert (Hn : ~ In [] (l_strings (set2 la lb))) by (cbn; intros [H|[H|[]]]; discriminate H).
    destruct (proj2 (C76_legacy_tokenizer _ Hb) Hn) as (f & Hf & H).
    destruct (H false [[lzero]]) as (t & Et & _ & Ct). { cbn. intros x [<-|[]]. discriminate. }
    destruct (ask_twice plain_oracle [lzero] (set1 lzero) (set2 la lb) s) as (c & Hc & Eg);
      [apply set1_built|reflexivity|reflexivity|exact E|].
    exists plain_oracle, [lzero], c, (set2 la lb), (no_pairs s), c, t.
    split; [apply plain_oracle_ok|]. split; [intros w [<-|[]]; discriminate|]. split; [exact Hc|].
    split; [exact Hb|]. split; [exact Eg|]. split; [exact Et|].
    change (l_cost (no_pairs s)) with (l_cost s). rewrite Hs, Ct. cbn [concat app map]. change (sum [?a]) with (a + 0). rewrite Nat.add_0_r.
    destruct (le_lt_dec (l_seg_cost (l_enc (set2 la lb)) (f lzero)) 1) as [Hle|Hlt]; [|exact Hlt]. exfalso.
    destruct (cheap_single _ (f lzero) lzero (l_built_ok _ Hb) Hn) as (i & _ & Hi).
    + discriminate.
    + apply (proj1 (proj1 (proj1 (Hf lzero)))).
    + exact Hle.
    + apply nth_error_In in Hi. cbn in Hi. destruct Hi as [Hi|[Hi|[]]]; discriminate Hi.
Qed.

Lemma get_stats_stores o c ts s c' : l_get_stats o c ts = Ret (s, c') -> sget (lc_map c') (l_key ts) <> None.
Proof.
  unfold l_get_stats. destruct (sget (lc_map c) (l_key ts)) as [s0|] eqn:E0.
  - intros E. injection E as _ <-. rewrite E0. discriminate.
  - destruct (l_tokenize _ _ _) as [t| |]; [|discriminate|discriminate]. cbn [bind]. intros E. injection E as _ <-.
    cbn [lc_map]. rewrite sget_sinsert, (proj2 (bstr_eqb_eq _ _) eq_refl). discriminate.
Qed.

(** A non-trivial case of the hypotheses of the partial theorem. *)
Example C77_example : exists c, asked plain_oracle (fun ts => clean ts /\ l_enc ts = LDist8) [la ++ lb; la] c /\
  sget (lc_map c) (l_key (set2 la lb)) <> None /\ clean (set2 lb la).
Proof.
  assert (Hc : clean (set2 la lb)).
  { split; [apply set2_built; discriminate|]. cbn. intros x [<-|[<-|[]]]; (split; [discriminate|]); intros [H|[]]; discriminate H. }
  assert (Hg : good_samples [la ++ lb; la]) by (intros w [<-|[<-|[]]]; discriminate).
  destruct (get_stats_ok plain_oracle LDist8 (lcache_new [la ++ lb; la]) (set2 la lb) plain_oracle_ok (cache_new_good _ _ Hg) Hc eq_refl)
    as (_ & _ & s & c & E & _).
  exists c. split; [|split].
  - eapply as_get; [apply as_new|split; [exact Hc|reflexivity]|exact E].
  - exact (get_stats_stores _ _ _ _ _ E).
  - split; [apply set2_built; discriminate|]. cbn. intros x [<-|[<-|[]]]; (split; [discriminate|]); intros [H|[]]; discriminate H.
Qed.
