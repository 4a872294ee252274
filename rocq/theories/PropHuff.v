(** * Properties C66, C67: how good the byteshuff encoding is. *)
From Verif Require Import Base BaseLemmas TokenSetModel TokenizerModel TokSpec SortLemmas
  TokenSetProof TokenSetProof2 TokenizerProof1 TokenizerTheory PropTokenizer PropTokenSet PropJson Shaped
  OptBytesModel OptBytesProof OptBytesProof2 OptBytesProof3 OptBytesProof4 PropOptBytes OptimizeProof5.

(** ** Specification *)

(** [code_length ts b l]: the set encodes the byte [b] by [l] tokens. *)
Definition code_length (ts : tokenset) (b : byte) (l : nat) : Prop :=
  (In (Str [b]) (tokens ts) /\ l = 1) \/
  (exists q, In q (sequences ts) /\ seq_string q = [b] /\ l = length (seq_tokens q)).

(** [weighs s ts w]: encoding every byte as often as the statistics have seen
    it on its own, and once more, takes [w] tokens. *)
Definition weighs (s : stats) (ts : tokenset) (w : nat) : Prop :=
  exists (u len : byte -> nat), (forall b, used s b (u b)) /\ (forall b, code_length ts b (len b)) /\
    w = sum (map (fun b => (u b + 1) * len b) all_bytes).

(** The table of the numbers of uses, plus one. *)
Definition counts_of (s : stats) (counts : ctable) : Prop :=
  map fst counts = all_bytes /\ forall b c, In (b, c) counts -> exists u, used s b u /\ c = u + 1.

(** ** C66 *)
Lemma seq_increasing a k : StronglySorted lt (seq a k).
Proof.
  revert a. induction k as [|k IH]; intros a; cbn; constructor; [apply IH|].
  apply Forall_forall. intros y Hy. apply in_seq in Hy. lia.
Qed.

Lemma huff_weighs s counts n_ext p tops ls qs :
  sized s -> usable (st_token_set s) -> (forall b, cnt counts b = uses s b + 1) ->
  huff_codes n_ext tops qs all_bytes -> NoDup ls -> (forall x, In x ls -> 1 < length x) ->
  weighs s (huff_set n_ext p (singles tops ++ ls) qs) (huff_cost counts tops qs).
Proof.
  intros Hz Hu Hc Hh Hn Hl. pose proof (huff_set_usable n_ext p tops ls qs Hh Hn Hl) as Hus.
  set (ts := huff_set n_ext p (singles tops ++ ls) qs) in *.
  exists (uses s), (cost ts). split; [|split].
  - intros b. apply used_uses. apply uses_in; assumption.
  - intros b. destruct (costs_all ts b Hus) as (c & Hi). rewrite (cost_eq ts b c Hus Hi). unfold all_costs in Hi.
    apply in_app_iff in Hi as [Hi|Hi]; [left; apply in_tok_costs in Hi|right; apply in_seq_costs in Hi]; exact Hi.
  - rewrite <- (sum_perm _ _ (Permutation_map _ (codes_bytes _ _ _ _ Hh))), map_app, sum_app. unfold huff_cost. f_equal.
    + f_equal. apply map_ext_in. intros b Hb. rewrite (cost_eq ts b 1 Hus); [rewrite Hc; lia|].
      unfold all_costs. apply in_app_iff. left. apply in_tok_costs. split; [|reflexivity].
      unfold ts, huff_set; cbn [tokens]. apply in_app_iff. right. apply in_map, in_app_iff. left.
      apply (in_map (fun c => [c])); exact Hb.
    + rewrite map_map. f_equal. apply map_ext_in. intros q Hq. rewrite (cost_eq ts (seq_byte q) (length (seq_tokens q)) Hus); [rewrite Hc; reflexivity|].
      unfold all_costs. apply in_app_iff. right. apply in_seq_costs. exists q. split; [exact Hq|].
      split; [apply (codes_single _ _ _ _ Hh q Hq)|reflexivity].
Qed.

Lemma counts_full s counts : counts_of s counts -> full_table counts.
Proof.
  intros (H1 & H2). constructor; [exact H1|]. intros [b c] Hx. destruct (H2 b c Hx) as (u & _ & ->). cbn; lia.
Qed.

Lemma counts_unique s counts counts' : sized s -> usable (st_token_set s) ->
  counts_of s counts -> (full_table counts' /\ forall b, cnt counts' b = uses s b + 1) -> counts = counts'.
Proof.
  intros Hz Hu Hc (F' & Hc'). pose proof (counts_full _ _ Hc) as F. destruct Hc as (_ & Hc).
  apply nth_ext with (d := (x00, 0)) (d' := (x00, 0)); [rewrite !full_length by assumption; reflexivity|].
  intros i Hi. rewrite full_length in Hi by exact F.
  destruct (full_nth counts (n2b i) F) as (E & _). destruct (full_nth counts' (n2b i) F') as (E' & _).
  rewrite b2n_n2b, Nat.mod_small in E, E' by exact Hi.
  rewrite (nth_error_nth _ _ _ E), (nth_error_nth _ _ _ E'). f_equal. rewrite Hc'.
  apply nth_error_In in E. destruct (Hc _ _ E) as (u & Hu' & ->). apply used_uses in Hu'.
  rewrite (uses_eq s _ u Hz Hu Hu'). reflexivity.
Qed.

Theorem C66_cheapest_number_of_extension_tokens : forall s n counts,
  let ts := st_token_set s in
  full_stats s -> (exists tk, tokenizer_new ts = Ret tk) ->
  (forall q, In q (sequences ts) -> length (seq_string q) = 1) -> 3 <= n ->
  counts_of s counts ->
  exists ts' w, huff_bytes s n = Ret ts' /\ weighs s ts' w /\
    (exists c, optimize_bytes_tokenset counts (n - n_ext_tokens ts') (n_ext_tokens ts') (ts_processing ts) = Ret c /\
       tokens ts' = tokens c ++ filter is_long (tokens ts) /\ sequences ts' = sequences c) /\
    forall m, 2 <= m <= 10 -> m < n ->
      exists c wc, optimize_bytes_tokenset counts (n - m) m (ts_processing ts) = Ret c /\ n_ext_tokens c = m /\
        weighs s c wc /\ w <= wc /\ (m < n_ext_tokens ts' -> w < wc).
Proof.
  intros s n counts ts Hz Htk Hs Hn Hc. unfold ts in *. clear ts. rewrite C01_tokenizer_exists_iff_usable in Htk.
  destruct (huff_counts_ok s Hs) as (Ec & F). pose proof (fun b => huff_counts_at s b Hz Htk) as Hat.
  pose proof (counts_unique s counts _ Hz Htk Hc (conj F Hat)) as E0. rewrite <- E0 in *. clear E0.
  set (p := ts_processing (st_token_set s)).
  unfold huff_bytes. rewrite Ec. cbn [bind]. rewrite checked_sub_le by lia. cbn [bind].
  set (l := seq 2 (Nat.min (n - 1) 10 - 1)).
  assert (Hl : forall e, In e l <-> 2 <= e <= 10 /\ e < n).
  { intros e. unfold l. rewrite in_seq. lia. }
  destruct (search_ok counts n p F l) as (n_ext & tops & qs & Em & Hcd & l1 & l2 & El & H1 & H2).
  { intros e He. apply Hl in He. lia. }
  { unfold l. destruct (Nat.min (n - 1) 10 - 1) eqn:E; [lia|discriminate]. }
  fold p. rewrite Em. cbn [bind unwrap]. rewrite add_long_ok.
  pose proof Hcd as (Hc1 & Hc2 & Hc3).
  assert (Hlong : forall x, In x (longs (str_tokens (st_token_set s))) -> 1 < length x).
  { intros x Hx. apply in_longs in Hx. apply Hx. }
  assert (Hln : NoDup (longs (str_tokens (st_token_set s)))).
  { apply NoDup_filter. destruct Htk as (Hnd & _). unfold strings in Hnd. apply NoDup_app_iff in Hnd as (Hnd & _). exact Hnd. }
  rewrite add_longs_huff; [|intros q Hq; apply (codes_single _ _ _ _ Hc3 q Hq)|exact Hlong].
  eexists. exists (huff_cost counts tops qs). split; [reflexivity|]. split; [|split].
  - apply huff_weighs; assumption.
  - cbn [huff_set n_ext_tokens]. eexists. split; [exact Hc1|]. cbn [huff_set tokens sequences]. split; [|reflexivity].
    rewrite map_app, app_assoc. f_equal. unfold str_tokens, longs.
    induction (tokens (st_token_set s)) as [|[x|] t IH]; cbn [filter is_long flat_map app]; [reflexivity| |exact IH].
    destruct (1 <? length x); cbn [map]; rewrite IH; reflexivity.
  - intros m Hm Hmn. destruct (candidate_exists counts n p F m) as (t & q & Ht); [lia|lia|].
    pose proof Ht as (Ht1 & _ & Ht3).
    exists (huff_set m p (singles t) q), (huff_cost counts t q). split; [exact Ht1|]. split; [reflexivity|]. split.
    + rewrite <- (app_nil_r (singles t)). apply huff_weighs; try assumption; [constructor|intros x []].
    + assert (Hi : In m l) by (apply Hl; lia).
      cbn [huff_set n_ext_tokens].
      assert (Hss : StronglySorted lt l).
      { apply seq_increasing. }
      rewrite El in Hi, Hss. apply SS_app in Hss as (_ & S2 & S12). apply in_app_iff in Hi as [Hi|[->|Hi]].
      * specialize (H1 m t q Hi Ht). split; [lia|auto].
      * rewrite (candidate_unique counts n p _ _ _ _ _ Hcd Ht). lia.
      * specialize (H2 m t q Hi Ht). split; [exact H2|]. intros Hlt. inversion S2 as [|? ? _ Hf]; subst.
        rewrite Forall_forall in Hf. specialize (Hf m Hi). lia.
Qed.

(** There always is such a table. *)
Lemma C66_table_exists : forall s, full_stats s -> (exists tk, tokenizer_new (st_token_set s) = Ret tk) ->
  exists counts, counts_of s counts.
Proof.
  intros s Hz Htk. rewrite C01_tokenizer_exists_iff_usable in Htk.
  exists (map (fun b => (b, uses s b + 1)) all_bytes). split; [rewrite map_map, map_id; reflexivity|].
  intros b c Hi. apply in_map_iff in Hi as (b' & E & _). injection E as <- <-. exists (uses s b').
  split; [apply used_uses, uses_in; assumption|reflexivity].
Qed.

(** ** C67: splitting the bytes into intervals *)

Definition weight (g : ctable) : nat := sum (map snd g).
Definition top_weight (g : ctable) : nat := fold_right Nat.max 0 (map snd g).

(** What the bytes cost that are not the most frequent one of their interval
    (each of them takes at least one more token). *)
Definition rest_weight (groups : list ctable) : nat := sum (map (fun g => weight g - top_weight g) groups).

(** [splits] are the first bytes and most frequent bytes of the intervals [groups]. *)
Definition splits_into (splits : list chars_split) (groups : list ctable) : Prop :=
  Forall2 (fun sp g => (exists c r, g = (cs_lo sp, c) :: r) /\ In (cs_top sp, cs_top_count sp) g /\
                       forall b c, In (b, c) g -> c <= cs_top_count sp) splits groups.

(** The split is not the best one: of four bytes with counts 2, 2, 1, 1 it
    makes the intervals 2 2 | 1 1 with rest 3; 2 | 2 1 1 has rest 2. *)
Theorem C67_optimal_split_refuted : ~ forall counts parts splits groups best,
  1 <= parts -> StronglySorted (fun a b => b2n (fst a) < b2n (fst b)) counts -> (forall x, In x counts -> 1 <= snd x) ->
  optimize_splits counts parts = Ret splits -> splits_into splits groups -> concat groups = counts ->
  concat best = counts -> length best = parts -> (forall g, In g best -> g <> []) ->
  rest_weight groups <= rest_weight best.
Proof.
  intros H. specialize (H [(x61, 2); (x62, 2); (x63, 1); (x64, 1)] 2 [mkSplit x61 x62 2; mkSplit x63 x64 1]
    [[(x61, 2); (x62, 2)]; [(x63, 1); (x64, 1)]] [[(x61, 2)]; [(x62, 2); (x63, 1); (x64, 1)]]).
  assert (G : 3 <= 2); [|lia]. apply H.
  - lia.
  - repeat constructor; cbn; lia.
  - intros x Hx. cbn in Hx. intuition (subst; cbn; lia).
  - reflexivity.
  - apply Forall2_cons; [|apply Forall2_cons; [|apply Forall2_nil]]; cbn [cs_lo cs_top cs_top_count];
      (split; [eexists _, _; reflexivity|]); (split; [right; left; reflexivity|]);
      intros b c [E|[E|[]]]; injection E as <- <-; lia.
  - reflexivity.
  - reflexivity.
  - reflexivity.
  - intros g [<-|[<-|[]]]; discriminate.
Qed.

(** What holds is a local property of joining the lightest neighbours: no
    interval of two or more bytes weighs more than any two neighbouring
    intervals together. *)
Lemma best_pair_least nodes : 2 <= length nodes ->
  exists c i a x y b, best_pair nodes = Ret (Some (c, i)) /\ nodes = a ++ x :: y :: b /\ length a = i /\
    c = h_count x + h_count y /\
    forall a' x' y' b', nodes = a' ++ x' :: y' :: b' -> c <= h_count x' + h_count y'.
Proof.
  intros Hlen.
  set (pairs i c := exists x y, nth_error nodes i = Some x /\ nth_error nodes (i + 1) = Some y /\ c = h_count x + h_count y).
  set (inv (k : nat) (best : option (nat * nat)) :=
    match best with
    | None => k = 0
    | Some (c, i) => pairs i c /\ forall j c', j < k -> pairs j c' -> c <= c'
    end).
  assert (Hdet : forall i c c', pairs i c -> pairs i c' -> c = c') by (intros i c c' (x & y & H1 & H2 & ->) (x' & y' & H3 & H4 & ->); congruence).
  unfold best_pair.
  assert (G : forall m k best, k + m <= length nodes - 1 -> inv k best ->
    exists r, mfold (fun best i =>
           a <- idx nodes i ;; b <- idx nodes (i + 1) ;;
           let c := h_count a + h_count b in
           match best with
           | None => Ret (Some (c, i))
           | Some (m, _) => if c <? m then Ret (Some (c, i)) else Ret best
           end) (seq k m) best = Ret r /\ inv (k + m) r).
  { induction m as [|m IH]; intros k best Hk Hi; cbn [seq mfold].
    - exists best. rewrite Nat.add_0_r. auto.
    - destruct (nth_error nodes k) as [x|] eqn:Ex; [|apply nth_error_None in Ex; lia].
      destruct (nth_error nodes (k + 1)) as [y|] eqn:Ey; [|apply nth_error_None in Ey; lia].
      unfold idx at 1 2. rewrite Ex, Ey. cbn [unwrap bind].
      assert (Hp : pairs k (h_count x + h_count y)) by (exists x, y; auto).
      replace (k + S m) with (S k + m) by lia.
      destruct best as [[c i]|]; cbn [inv] in Hi.
      + destruct Hi as (H1 & H2). destruct (Nat.ltb_spec (h_count x + h_count y) c) as [Hc|Hc]; cbn [bind]; apply IH; try lia; cbn [inv].
        * split; [exact Hp|]. intros j c' Hj Hc'. destruct (Nat.eq_dec j k) as [->|Hne]; [rewrite (Hdet _ _ _ Hp Hc'); lia|].
          assert (c <= c') by (apply (H2 j); [lia|exact Hc']). lia.
        * split; [exact H1|]. intros j c' Hj Hc'. destruct (Nat.eq_dec j k) as [->|Hne]; [rewrite <- (Hdet _ _ _ Hp Hc'); exact Hc|].
          apply (H2 j); [lia|exact Hc'].
      + subst k. cbn [bind]. apply IH; [lia|]. cbn [inv]. split; [exact Hp|]. intros j c' Hj Hc'.
        assert (j = 0) as -> by lia. rewrite (Hdet _ _ _ Hp Hc'). lia. }
  destruct (G (length nodes - 1) 0 None) as (r & E & Hr); [lia|reflexivity|].
  destruct r as [[c i]|]; cbn [inv] in Hr; [|lia]. destruct Hr as ((x & y & H1 & H2 & ->) & Hmin).
  destruct (nth_error_split _ _ H1) as (a & r & -> & Ha).
  destruct r as [|y' b].
  { exfalso. assert (i + 1 < length (a ++ [x])) by (apply nth_error_Some; congruence). rewrite app_length in *. cbn in *. lia. }
  assert (y' = y) as ->.
  { rewrite nth_error_app2 in H2 by lia. replace (i + 1 - length a) with 1 in H2 by lia. cbn in H2. congruence. }
  exists (h_count x + h_count y), i, a, x, y, b. split; [exact E|]. split; [reflexivity|]. split; [exact Ha|]. split; [reflexivity|].
  intros a' x' y' b' E'. apply (Hmin (length a')).
  - rewrite E', app_length. cbn. lia.
  - unfold pairs; rewrite E'. exists x', y'. split; [|split; [|reflexivity]].
    + rewrite nth_error_app2, Nat.sub_diag by lia. reflexivity.
    + rewrite nth_error_app2 by lia. replace (length a' + 1 - length a') with 1 by lia. reflexivity.
Qed.

Lemma best_pair_exact {A} (nodes a : list A) (x y : A) (b : list A) : nodes = a ++ x :: y :: b ->
  idx nodes (length a + 1) = Ret y /\ vremove nodes (length a + 1) = Ret (a ++ x :: b).
Proof.
  intros ->. change (a ++ x :: y :: b) with (a ++ [x] ++ y :: b). rewrite app_assoc.
  replace (length a + 1) with (length (a ++ [x])) by (rewrite app_length; cbn; lia).
  split; [apply idx_mid; reflexivity|]. rewrite vremove_mid, <- app_assoc. reflexivity.
Qed.

Definition balanced (nodes : list hnode) : Prop :=
  forall n, In n nodes -> 1 < length (leaves n) -> forall a x y b, nodes = a ++ x :: y :: b -> h_count n <= h_count x + h_count y.

Definition counted (n : hnode) : Prop := h_count n = weight (leaves n).

Lemma adjacent_after a x y b n a' x' y' b' : a ++ n :: b = a' ++ x' :: y' :: b' -> h_count n = h_count x + h_count y ->
  h_count n <= h_count x' + h_count y' \/ exists a2 b2, a ++ x :: y :: b = a2 ++ x' :: y' :: b2.
Proof.
  intros E Hn. revert a' E. induction a as [|z a IH]; intros a' E; cbn in E.
  - destruct a' as [|z' a']; cbn in E.
    + injection E as <- ->. left. lia.
    + injection E as <- E. right. exists (x :: y :: a'), b'. cbn. congruence.
  - destruct a' as [|z' a']; cbn in E.
    + injection E as -> E. destruct a as [|w a]; cbn in E.
      * injection E as -> ->. left. lia.
      * injection E as -> _. right. exists [], (a ++ x :: y :: b). reflexivity.
    + injection E as -> E. destruct (IH a' E) as [H|(a2 & b2 & H)]; [left; exact H|]. right. exists (z' :: a2), b2. cbn. congruence.
Qed.

Lemma merge_nodes_balanced parts : 1 <= parts -> forall fuel nodes, length nodes <= fuel + parts ->
  balanced nodes -> (forall n, In n nodes -> counted n) ->
  exists r, merge_nodes fuel parts nodes = Ret r /\ flat_map leaves r = flat_map leaves nodes /\
    balanced r /\ (forall n, In n r -> counted n).
Proof.
  intros Hp. induction fuel as [|fuel IH]; intros nodes Hf Hb Hc; cbn [merge_nodes];
    destruct (Nat.ltb_spec parts (length nodes)) as [Hl|Hl]; try lia;
    try (exists nodes; split; [reflexivity|]; split; [reflexivity|]; split; assumption).
  destruct (best_pair_least nodes) as (c & i & a & x & y & b & E & En & Ha & Ec & Hmin); [lia|].
  rewrite E. cbn [bind unwrap]. destruct (best_pair_exact nodes a x y b En) as (E1 & E2). rewrite Ha in E1, E2.
  rewrite E1, E2. cbn [bind].
  rewrite (idx_mid a b x i) by (symmetry; exact Ha). cbn [bind]. unfold idx_upd.
  rewrite app_length. cbn [length].
  replace (i <? _) with true by (symmetry; apply Nat.ltb_lt; lia). cbn [bind].
  rewrite <- Ha, upd_mid. set (nn := HInt (h_count x + h_count y) x y).
  destruct (IH (a ++ nn :: b)) as (r & Er & Hr & Hrb & Hrc).
  - rewrite En in Hf. rewrite app_length in *; cbn in *; lia.
  - intros n Hn Hlong a' x' y' b' E'.
    destruct (adjacent_after a x y b nn a' x' y' b' E' eq_refl) as [Hle|(a2 & b2 & E2')].
    + (* the new node is one of the two *)
      assert (Hn' : In n nodes \/ n = nn).
      { apply in_app_iff in Hn as [Hn|[<-|Hn]]; [left|right; reflexivity|left]; rewrite En; apply in_app_iff; [left; exact Hn|right; right; right; exact Hn]. }
      destruct Hn' as [Hn'| ->]; [|exact Hle].
      pose proof (Hb n Hn' Hlong a x y b En). cbn [nn h_count] in Hle. lia.
    + assert (Hn' : In n nodes \/ n = nn).
      { apply in_app_iff in Hn as [Hn|[<-|Hn]]; [left|right; reflexivity|left]; rewrite En; apply in_app_iff; [left; exact Hn|right; right; right; exact Hn]. }
      rewrite <- En in E2'. destruct Hn' as [Hn'| ->]; [exact (Hb n Hn' Hlong _ _ _ _ E2')|].
      cbn [nn h_count]. rewrite <- Ec. exact (Hmin _ _ _ _ E2').
  - intros n Hn. apply in_app_iff in Hn as [Hn|[<-|Hn]].
    + apply Hc. rewrite En. apply in_app_iff. left; exact Hn.
    + unfold counted, nn. cbn [h_count leaves]. unfold weight. rewrite map_app, sum_app.
      rewrite (Hc x), (Hc y); [reflexivity| |]; rewrite En; apply in_app_iff; right; [right; left|left]; reflexivity.
    + apply Hc. rewrite En. apply in_app_iff. right; right; right; exact Hn.
  - exists r. split; [exact Er|]. split; [|split; assumption].
    rewrite Hr, En, !flat_map_app. cbn. rewrite <- app_assoc. reflexivity.
Qed.

Theorem C67_optimal_split_partial : forall counts parts,
  1 <= parts -> StronglySorted (fun a b => b2n (fst a) < b2n (fst b)) counts ->
  exists splits groups, optimize_splits counts parts = Ret splits /\
    concat groups = counts /\ splits_into splits groups /\
    forall g, In g groups -> 1 < length g ->
    forall l g1 g2 r, groups = l ++ g1 :: g2 :: r -> weight g <= weight g1 + weight g2.
Proof.
  intros counts parts Hp Hs. unfold optimize_splits.
  destruct (merge_nodes_balanced parts Hp (length counts) (map (fun p => HLeaf (snd p) (fst p)) counts))
    as (r & E & Hr & Hb & Hc).
  - rewrite map_length; lia.
  - intros n Hn Hl. apply in_map_iff in Hn as (p & <- & _). cbn in Hl. lia.
  - intros n Hn. apply in_map_iff in Hn as (p & <- & _). unfold counted, weight, sum. cbn. lia.
  - rewrite E. cbn [bind].
    assert (Hcc : flat_map leaves r = counts).
    { rewrite Hr. clear. induction counts as [|[b c] t IH]; cbn; [reflexivity|]. f_equal; exact IH. }
    exists (map node_to_split r), (map leaves r). split; [reflexivity|].
    rewrite concat_map_flat. split; [exact Hcc|]. split.
    + assert (Hall : forall n, In n r -> increasing (leaves n)).
      { intros n Hn. apply (increasing_group (map leaves r)).
        - rewrite concat_map_flat, Hcc. exact Hs.
        - apply in_map; exact Hn. }
      clear -Hall. induction r as [|n r IH]; cbn; [apply Forall2_nil|]. apply Forall2_cons.
      * destruct (node_split_of n) as (A & B & C); [apply Hall; left; reflexivity|]. split; [exact A|]. split; [exact B|].
        intros b c Hi. apply (C (b, c) Hi).
      * apply IH. intros m Hm; apply Hall; right; exact Hm.
    + intros g Hg Hl l g1 g2 rr Eg. apply in_map_iff in Hg as (n & <- & Hn).
      apply map_eq_app in Eg as (a & b & -> & <- & Eg).
      destruct b as [|x [|y b]]; cbn [map] in Eg; try discriminate. injection Eg as <- <- _.
      rewrite <- (Hc n Hn), <- (Hc x), <- (Hc y).
      * exact (Hb n Hn Hl a x y b eq_refl).
      * apply in_app_iff; right; right; left; reflexivity.
      * apply in_app_iff; right; left; reflexivity.
Qed.

(** The table of a concrete set of statistics: the hypotheses of C66 hold for
    fresh statistics of the set of all bytes, and a joined interval is as light
    as C67 says. *)
Example C66_hypotheses_met : forall p, let s := stats_new (new_bytes p) (Some 3) in
  full_stats s /\ (exists tk, tokenizer_new (st_token_set s) = Ret tk) /\
  (forall q, In q (sequences (st_token_set s)) -> length (seq_string q) = 1) /\
  exists counts, counts_of s counts.
Proof.
  intros p s.
  assert (H : full_stats s /\ (exists tk, tokenizer_new (st_token_set s) = Ret tk) /\
              (forall q, In q (sequences (st_token_set s)) -> length (seq_string q) = 1)).
  { unfold s. cbn [st_token_set stats_new]. split; [|split].
    - destruct (matches_new (new_bytes p) (Some 3)) as (_ & H1 & H2 & _). split; assumption.
    - apply C01_tokenizer_exists_iff_usable. rewrite new_bytes_eq. apply usable_bytes_set.
    - intros q Hq. rewrite new_bytes_eq in Hq. destruct Hq. }
  destruct H as (H1 & H2 & H3). split; [exact H1|]. split; [exact H2|]. split; [exact H3|].
  apply C66_table_exists; assumption.
Qed.
Example C67_example :
  optimize_splits [(x61, 3); (x62, 9); (x63, 1); (x64, 8); (x65, 2)] 3
  = Ret [mkSplit x61 x61 3; mkSplit x62 x62 9; mkSplit x63 x64 8].
Proof. reflexivity. Qed.
