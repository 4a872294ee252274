(** * C80: growing the token set of the earlier optimizer (src/optimizer.rs [add_tokens], [add_tokens_bpe]). *)
From Verif Require Import Base BaseLemmas LegacyModel LegacySpec LegacyTok PropLegacyTok LegacyOptModel LegacyOptProof
  PropLegacyCache LegacyBytesProof LegacyPairs LegacyValues.
From Coq Require Import ZArith Sorted Permutation.

(** ** Sorting by an oracle *)
Lemma pick_ok {A} (l : list A) order : (forall i, In i order -> i < length l) -> exists r, pick l order = Ret r /\ Forall2 (fun i a => nth_error l i = Some a) order r.
Proof.
  intros H. destruct (mmap_total (idx l) order) as (r & E).
  { intros i Hi. specialize (H i Hi). unfold idx. destruct (nth_error l i) as [a|] eqn:Ea; [exists a; reflexivity|].
    apply nth_error_None in Ea. lia. }
  exists r. split; [exact E|]. apply mmap_ret in E. clear - E. induction E as [|i a o r Hi _ IH]; constructor; [|exact IH].
  apply idx_ret; exact Hi.
Qed.

Lemma forall2_map {A B} (R : A -> B -> Prop) (g : A -> B) l r : Forall2 R l r -> (forall a b, R a b -> b = g a) -> r = map g l.
Proof. intros H Hg. induction H as [|a b l r Hab _ IH]; [reflexivity|]. cbn. f_equal; [apply Hg; exact Hab|exact IH]. Qed.

Lemma nth_seq {A} (l : list A) d : map (fun i => nth i l d) (seq 0 (length l)) = l.
Proof.
  induction l as [|x l IH] using rev_ind; [reflexivity|].
  rewrite app_length. cbn [length]. rewrite Nat.add_1_r, seq_S, map_app. cbn [map plus]. rewrite app_nth2, Nat.sub_diag by lia. f_equal.
  rewrite <- IH at 2. apply map_ext_in. intros i Hi. apply in_seq in Hi. rewrite app_nth1 by lia. reflexivity.
Qed.

Lemma sort_pick {A} (o : oracle) k (key : A -> Z) (l : list A) : oracle_ok o ->
  exists r, pick l (o_sort o k (map key l)) = Ret r /\ Permutation r l /\ StronglySorted (fun a b => (key a <= key b)%Z) r.
Proof.
  intros Ho. destruct (o_sort_ok _ Ho k (map key l)) as (Hp & Hs). rewrite map_length in Hp.
  set (order := o_sort o k (map key l)) in *.
  destruct (pick_ok l order) as (r & E & F).
  { intros i Hi. apply (Permutation_in _ Hp), in_seq in Hi. lia. }
  exists r. split; [exact E|]. split.
  - destruct l as [|d l'] eqn:El.
    { apply Permutation_length in Hp. cbn in Hp. destruct order; [inversion F; constructor|discriminate Hp]. }
    rewrite <- El in *. rewrite (forall2_map _ (fun i => nth i l d) _ _ F).
    + apply Permutation_trans with (map (fun i => nth i l d) (seq 0 (length l))); [apply Permutation_map; exact Hp|].
      rewrite nth_seq. reflexivity.
    + intros i a Ha. symmetry. apply nth_error_nth; exact Ha.
  - clear - F Hs. revert Hs. induction F as [|i a order r Hi F IH]; intros Hs; [constructor|].
    apply StronglySorted_inv in Hs as (Hs & Hall). constructor; [apply IH; exact Hs|].
    assert (K : forall i a, nth_error l i = Some a -> nth i (map key l) 0%Z = key a).
    { intros j b Hj. apply nth_error_nth. rewrite nth_error_map, Hj. reflexivity. }
    rewrite (K _ _ Hi) in Hall. clear - F Hall K. induction F as [|j b order r Hj F IH]; constructor.
    + inversion Hall as [|? ? H1 H2]; subst. rewrite (K _ _ Hj) in H1. exact H1.
    + apply IH. inversion Hall; assumption.
Qed.

(** ** [add_tokens] *)

(** What making the string a token is taken to be worth. *)
Definition worth (ts : lset) (x : bstr) (n : nat) : nat :=
  if length x =? 1 then n * (literal_cost (l_enc ts) - 1) else n.

Lemma add_strings l : forall ts, l_built ts -> NoDup l -> (forall x, In x l -> ~ In x (l_strings ts)) ->
  exists ts', mfold l_add_token l ts = Ret ts' /\ l_built ts' /\ l_enc ts' = l_enc ts /\
    l_tokens ts' = l_tokens ts ++ map (fun x => mkLtok x false) l.
Proof.
  induction l as [|x l IH]; intros ts Hb Hnd Hl.
  - exists ts. cbn. rewrite app_nil_r. auto.
  - apply NoDup_cons_iff in Hnd as (Hi & Hnd).
    assert (E1 : l_add_token ts x = Ret (push_token ts x false)).
    { unfold l_add_token. rewrite (proj2 (indexes_None _ _ _ (l_built_ok _ Hb)) (Hl x (or_introl eq_refl))). reflexivity. }
    destruct (IH (push_token ts x false)) as (ts2 & E2 & Hb2 & Ee2 & T2).
    + eapply lb_add; eassumption.
    + exact Hnd.
    + intros y Hy Hin. unfold l_strings, push_token in Hin. cbn in Hin. rewrite map_app in Hin.
      apply in_app_or in Hin as [Hin|[E|[]]]; [apply (Hl y (or_intror Hy)); exact Hin|].
      cbn in E. apply Hi. rewrite E. exact Hy.
    + exists ts2. split; [cbn [mfold]; rewrite E1; exact E2|]. split; [exact Hb2|]. split; [exact Ee2|].
      rewrite T2. cbn. rewrite <- app_assoc. reflexivity.
Qed.

Lemma nodup_app {A} (a b : list A) : NoDup a -> NoDup b -> (forall x, In x a -> In x b -> False) -> NoDup (a ++ b).
Proof.
  induction a as [|x a IH]; intros Ha Hb H; [exact Hb|]. apply NoDup_cons_iff in Ha as (Hx & Ha). cbn. constructor.
  - intros Hin. apply in_app_or in Hin as [Hin|Hin]; [exact (Hx Hin)|]. apply (H x); [left; reflexivity|exact Hin].
  - apply IH; auto. intros y Hy. apply H. right; exact Hy.
Qed.

Lemma nodup_firstn {A} n (l : list A) : NoDup l -> NoDup (firstn n l).
Proof.
  intros H. rewrite <- (firstn_skipn n l) in H. clear - H. induction (firstn n l) as [|x a IH]; [constructor|].
  cbn in H. apply NoDup_cons_iff in H as (Hx & H). constructor; [|apply IH; exact H]. intros Hin. apply Hx. apply in_or_app; left; exact Hin.
Qed.

Record best_added (ts : lset) (f : bstr -> list tidx) (samples : list bstr) (n : nat) (added : list bstr) : Prop := {
  ba_nodup : NoDup added;
  ba_cand : forall x, In x added -> exists m, candidate ts f samples x m;
  ba_length : length added <= n;
  ba_all : length added < n -> forall x m, candidate ts f samples x m -> In x added;
  ba_best : forall x m y k, In x added -> candidate ts f samples x m -> candidate ts f samples y k -> ~ In y added ->
              worth ts y k <= worth ts x m
}.

Lemma add_tokens_ok o c ts n : oracle_ok o -> l_built ts -> ~ In [] (l_strings ts) -> length (l_tokens ts) <= 256 * 256 ->
  good_samples (lc_samples c) ->
  exists ts' added c' f, add_tokens o c ts n = Ret (ts', added, c') /\ lc_samples c' = lc_samples c /\
    (forall w, l_canonical ts (f w) w) /\ best_added ts f (lc_samples c) n added /\
    l_built ts' /\ l_enc ts' = l_enc ts /\ l_tokens ts' = l_tokens ts ++ map (fun x => mkLtok x false) added.
Proof.
  intros Ho Hb Hn Hl Hs. pose proof (l_built_ok _ Hb) as Hok.
  destruct (tokenize_samples o (lc_calls c) ts true (lc_samples c) Ho Hok Hn Hs) as (f & s & Hf & E & T & _).
  unfold add_tokens, get_stats_with_pairs. rewrite E. cbn [bind]. clear E.
  destruct (pair_values ts Hok Hn Hl f (lc_samples c) s Hf T _ (o_iter_ok _ Ho (lc_calls c) (ls_pairs s))) as (pv & Ep & Np & Hpv).
  rewrite Ep. cbn [bind]. clear Ep.
  destruct (literal_values_ok ts Hn Hl f (lc_samples c) s T (literal_cost (l_enc ts))) as (Nl & Hlv).
  set (lv := literal_values s (literal_cost (l_enc ts))) in *. clearbody lv.
  destruct (sort_pick o (lc_calls c) (fun v : bstr * nat => (- Z.of_nat (snd v))%Z) (lv ++ pv) Ho) as (r & Er & Pr & Sr).
  rewrite Er. cbn [bind]. clear Er.
  assert (Hr : forall x v, In (x, v) r <-> exists m, candidate ts f (lc_samples c) x m /\ v = worth ts x m).
  { intros x v. assert (G : In (x, v) r <-> In (x, v) (lv ++ pv)).
    { split; intros H; [eapply Permutation_in; eassumption|eapply Permutation_in; [apply Permutation_sym|]; eassumption]. }
    rewrite G, in_app_iff, Hlv, Hpv. unfold worth. split.
    - intros [(m & H1 & H2 & ->)|(H1 & H2)].
      + exists m. split; [exact H1|]. rewrite H2. reflexivity.
      + exists v. split; [exact H1|]. apply Nat.eqb_neq in H2. rewrite H2. reflexivity.
    - intros (m & H1 & ->). destruct (Nat.eqb_spec (length x) 1) as [H2|H2]; [left; exists m; auto|right; auto]. }
  assert (Nr : NoDup (map fst r)).
  { eapply Permutation_NoDup; [apply Permutation_map, Permutation_sym; exact Pr|]. rewrite map_app. apply nodup_app; [exact Nl|exact Np|].
    intros x H1 H2. apply in_map_iff in H1 as ([x1 v1] & <- & H1). apply in_map_iff in H2 as ([x2 v2] & E2 & H2). cbn in E2. subst x2.
    apply Hlv in H1 as (m & _ & H1 & _). apply Hpv in H2 as (_ & H2). contradiction. }
  assert (Hba : best_added ts f (lc_samples c) n (map fst (firstn n r))).
  { constructor.
    - rewrite <- firstn_map. apply nodup_firstn; exact Nr.
    - intros x Hx. apply in_map_iff in Hx as ([x' v] & <- & Hx).
      assert (Hx' : In (x', v) r) by (rewrite <- (firstn_skipn n r); apply in_or_app; left; exact Hx).
      apply Hr in Hx' as (m & Hm & _). exists m; exact Hm.
    - rewrite map_length, firstn_length. lia.
    - rewrite map_length, firstn_length. intros Hlt x m Hm. rewrite firstn_all2 by lia.
      change x with (fst (x, worth ts x m)). apply in_map. apply Hr. exists m; auto.
    - intros x m y k Hx Hxm Hyk Hny. apply in_map_iff in Hx as ([x' v] & Ex & Hx). cbn in Ex. subst x'.
      assert (Hx' : In (x, v) r) by (rewrite <- (firstn_skipn n r); apply in_or_app; left; exact Hx).
      apply Hr in Hx' as (m' & Hm' & ->). pose proof (candidate_fun ts Hok Hn f (lc_samples c) Hf _ _ _ Hxm Hm') as <-.
      assert (Hy : In (y, worth ts y k) r) by (apply Hr; exists k; auto).
      rewrite <- (firstn_skipn n r) in Hy. apply in_app_or in Hy as [Hy|Hy].
      { exfalso. apply Hny. change y with (fst (y, worth ts y k)). apply in_map; exact Hy. }
      rewrite <- (firstn_skipn n r) in Sr. pose proof (sorted_app _ _ _ Sr _ _ Hx Hy) as Hz. cbn [snd] in Hz. lia. }
  destruct (add_strings (map fst (firstn n r)) ts Hb (ba_nodup _ _ _ _ _ Hba)) as (ts' & E' & Hb' & He' & T').
  { intros x Hx. destruct (ba_cand _ _ _ _ _ Hba x Hx) as (m & Hm). apply (candidate_new ts Hn f (lc_samples c) Hf x m Hm). }
  rewrite E'. cbn [bind]. exists ts', (map fst (firstn n r)). eexists. exists f. split; [reflexivity|]. cbn [lc_samples]. auto 10.
Qed.

(** ** Adding candidates *)
Lemma candidate_occurs ts f samples x n : (forall w, l_canonical ts (f w) w) -> candidate ts f samples x n ->
  exists w a b, In w samples /\ w = a ++ x ++ b.
Proof.
  intros Hf H. destruct H as [b Hb|i j x y Hij Hx Hy].
  - apply in_flat_map in Hb as (w & Hw & Hb). destruct (Hf w) as ((Hs & _) & _). apply in_split in Hb as (xs & ys & E). rewrite E in Hs.
    apply l_seg_app_inv in Hs as (s & t & E' & _ & H2). inversion H2 as [|? ? z r Hz Hr]; subst. cbn in Hz. injection Hz as <-.
    exists (s ++ [b] ++ r), s, r. auto.
  - apply in_flat_map in Hij as (w & Hw & Hij). apply adj_in in Hij as (a & b & E). destruct (Hf w) as ((Hs & _) & _). rewrite E in Hs.
    apply l_seg_app_inv in Hs as (s & t & E' & _ & H2).
    inversion H2 as [|? ? x' r Hx' Hr]; subst. inversion Hr as [|? ? y' r' Hy' _]; subst.
    cbn in Hx', Hy'. rewrite Hx in Hx'. injection Hx' as <-. rewrite Hy in Hy'. injection Hy' as <-.
    exists (s ++ x ++ y ++ r'), s, r'. split; [exact Hw|]. rewrite <- !app_assoc. reflexivity.
Qed.

Lemma sum_le_map {A} (g h : A -> nat) l : (forall x, In x l -> g x <= h x) -> sum (map g l) <= sum (map h l).
Proof.
  induction l as [|x l IH]; intros H; [apply Nat.le_refl|]. cbn [map]. rewrite !sum_cons.
  pose proof (H x (or_introl eq_refl)). assert (sum (map g l) <= sum (map h l)) by (apply IH; intros y Hy; apply H; right; exact Hy). lia.
Qed.

Lemma sum_lt_map {A} (g h : A -> nat) l w : (forall x, In x l -> g x <= h x) -> In w l -> g w < h w -> sum (map g l) < sum (map h l).
Proof.
  induction l as [|x l IH]; intros H Hw Hlt; [destruct Hw|]. cbn [map]. rewrite !sum_cons.
  pose proof (H x (or_introl eq_refl)) as Hx. destruct Hw as [->|Hw].
  - assert (sum (map g l) <= sum (map h l)) by (apply sum_le_map; intros y Hy; apply H; right; exact Hy). lia.
  - assert (sum (map g l) < sum (map h l)) by (apply IH; auto; intros y Hy; apply H; right; exact Hy). lia.
Qed.

Lemma costs_mono ts ts' samples k k' : l_ok ts' -> l_enc ts' = l_enc ts -> incl (l_strings ts) (l_strings ts') ->
  l_costs ts samples k -> l_costs ts' samples k' -> k' <= k.
Proof.
  intros Hok He Hi (f & Hf & ->) (g & Hg & ->). apply sum_le_map. intros w _.
  apply (more_tokens ts ts' _ _ w); auto; apply Hf.
Qed.

(** A new token that is a candidate is worth it. *)
Lemma candidate_cheaper ts ts' f samples x n k k' : l_ok ts' -> l_enc ts' = l_enc ts ->
  incl (l_strings ts) (l_strings ts') -> In x (l_strings ts') -> (forall w, l_canonical ts (f w) w) -> candidate ts f samples x n ->
  l_costs ts samples k -> l_costs ts' samples k' -> k' < k.
Proof.
  intros Hok He Hi Hx Hf Hc Hk (g & Hg & ->).
  assert (k = sum (map (fun w => l_seg_cost (l_enc ts) (f w)) samples)) as ->.
  { eapply l_costs_unique; [exact Hk|]. exists f. split; [intros w; apply (Hf w)|reflexivity]. }
  assert (exists w, In w samples /\ exists ys, l_segments ts' ys w /\ l_seg_cost (l_enc ts') ys < l_seg_cost (l_enc ts) (f w)) as (w & Hw & ys & Hys & Hlt).
  { apply (indexes_In _ _ _ Hok) in Hx as (p & Hp). apply Hok in Hp.
    assert (Htr : forall xs v, l_segments ts xs v -> l_segments ts' (map (tr ts ts') xs) v /\ l_seg_cost (l_enc ts) (map (tr ts ts') xs) = l_seg_cost (l_enc ts) xs).
    { intros xs v Hv. split; [apply tr_segments; assumption|]. eapply tr_seg_cost; eassumption. }
    destruct Hc as [b Hb|i j x y Hij Hxi Hyj].
    - apply in_flat_map in Hb as (w & Hw & Hb). destruct (Hf w) as ((Hs & _) & _). apply in_split in Hb as (xs & ys & E). rewrite E in *.
      apply l_seg_app_inv in Hs as (s & t & E' & H1 & H2). inversion H2 as [|? ? z r Hz Hr]; subst. cbn in Hz. injection Hz as <-.
      destruct (Htr _ _ H1) as (A1 & B1). destruct (Htr _ _ Hr) as (A2 & B2).
      exists (s ++ [b] ++ r). split; [exact Hw|]. exists (map (tr ts ts') xs ++ LTok p :: map (tr ts ts') ys). split.
      { apply l_seg_app; [exact A1|]. constructor; [exact Hp|exact A2]. }
      rewrite He, E. revert B1 B2. unfold l_seg_cost. rewrite !map_app, !sum_app. cbn [map]. rewrite !sum_cons. cbn [l_piece_cost].
      intros -> ->. pose proof (literal_cost_pos (l_enc ts)). lia.
    - apply in_flat_map in Hij as (w & Hw & Hij). apply adj_in in Hij as (a & b & E). destruct (Hf w) as ((Hs & _) & _). rewrite E in *.
      apply l_seg_app_inv in Hs as (s & t & E' & H1 & H2).
      inversion H2 as [|? ? x' r Hx' Hr]; subst. inversion Hr as [|? ? y' r' Hy' Hr']; subst.
      cbn in Hx', Hy'. rewrite Hxi in Hx'. injection Hx' as <-. rewrite Hyj in Hy'. injection Hy' as <-.
      destruct (Htr _ _ H1) as (A1 & B1). destruct (Htr _ _ Hr') as (A2 & B2).
      exists (s ++ x ++ y ++ r'). split; [exact Hw|]. exists (map (tr ts ts') a ++ LTok p :: map (tr ts ts') b). split.
      { apply l_seg_app; [exact A1|]. rewrite app_assoc. constructor; [exact Hp|exact A2]. }
      rewrite He, E. revert B1 B2. unfold l_seg_cost. rewrite !map_app, !sum_app. cbn [map]. rewrite !sum_cons. cbn [l_piece_cost].
      intros -> ->. lia. }
  apply (sum_lt_map _ _ _ w); [|exact Hw|].
  - intros v _. apply (more_tokens ts ts' _ _ v); auto. apply (Hf v).
  - eapply Nat.le_lt_trans; [apply (Hg w); exact Hys|exact Hlt].
Qed.

Lemma costs_exist ts samples : l_ok ts -> ~ In [] (l_strings ts) -> exists k, l_costs ts samples k.
Proof.
  intros Hok Hn. destruct (l_tokenize_ok ts Hok Hn) as (f & Hf & _). eexists. exists f. split; [intros w; apply (Hf w)|reflexivity].
Qed.

(** When every sample is a token there is nothing to add. *)
Lemma no_candidate ts f samples x n : l_ok ts -> ~ In [] (l_strings ts) -> good_samples samples -> (forall w, l_canonical ts (f w) w) ->
  (forall w, In w samples -> In w (l_strings ts)) -> candidate ts f samples x n -> False.
Proof.
  intros Hok Hn Hs Hf Hall Hc.
  assert (G : forall w, In w samples -> exists i, f w = [LTok i]).
  { intros w Hw. pose proof (Hall w Hw) as Hin. apply In_nth_error in Hin as (i & Hi). destruct (single_token ts i w Hi) as (H1 & H2).
    destruct (Hf w) as ((H3 & H4) & _). apply H4 in H1. rewrite H2 in H1.
    destruct (cheap_single ts (f w) w Hok Hn (Hs w Hw) H3 H1) as (j & E & _). exists j; exact E. }
  destruct Hc as [b Hb|i j x y Hij _ _].
  - apply in_flat_map in Hb as (w & Hw & Hb). destruct (G w Hw) as (i & E). rewrite E in Hb. destruct Hb as [Hb|[]]. discriminate Hb.
  - apply in_flat_map in Hij as (w & Hw & Hij). destruct (G w Hw) as (k & E). rewrite E in Hij. exact Hij.
Qed.

Lemma strings_app ts ts' added : l_tokens ts' = l_tokens ts ++ map (fun x => mkLtok x false) added -> l_strings ts' = l_strings ts ++ added.
Proof. intros E. unfold l_strings. rewrite E, map_app, map_map. cbn. rewrite map_id. reflexivity. Qed.

Lemma get_stats_total o c ts : oracle_ok o -> l_ok ts -> ~ In [] (l_strings ts) -> good_samples (lc_samples c) ->
  exists s c', l_get_stats o c ts = Ret (s, c') /\ lc_samples c' = lc_samples c.
Proof.
  intros Ho Hok Hn Hs. unfold l_get_stats. destruct (sget (lc_map c) (l_key ts)) as [s|]; [exists s, c; auto|].
  destruct (tokenize_samples o (lc_calls c) ts false (lc_samples c) Ho Hok Hn Hs) as (f & s & _ & E & _).
  rewrite E. cbn [bind]. exists s. eexists. split; reflexivity.
Qed.

(** One round of the loop. *)
Lemma bpe_round o c ts m : oracle_ok o -> l_built ts -> ~ In [] (l_strings ts) -> length (l_tokens ts) <= 256 * 256 ->
  good_samples (lc_samples c) ->
  exists ts' added c' s c'' f, add_tokens o c ts m = Ret (ts', added, c') /\ l_get_stats o c' ts' = Ret (s, c'') /\
    lc_samples c'' = lc_samples c /\
    (forall w, l_canonical ts (f w) w) /\ best_added ts f (lc_samples c) m added /\
    l_built ts' /\ ~ In [] (l_strings ts') /\ l_enc ts' = l_enc ts /\ l_tokens ts' = l_tokens ts ++ map (fun x => mkLtok x false) added.
Proof.
  intros Ho Hb Hn Hl Hs. destruct (add_tokens_ok o c ts m Ho Hb Hn Hl Hs) as (ts' & added & c' & f & E & Ec & Hf & Hba & Hb' & He' & T').
  assert (Hn' : ~ In [] (l_strings ts')).
  { rewrite (strings_app _ _ _ T'). intros H. apply in_app_or in H as [H|H]; [exact (Hn H)|].
    destruct (ba_cand _ _ _ _ _ Hba _ H) as (k & Hk). destruct (candidate_new ts Hn f (lc_samples c) Hf _ _ Hk) as (_ & X & _). congruence. }
  destruct (get_stats_total o c' ts' Ho (l_built_ok _ Hb') Hn') as (s & c'' & E'' & Ec''); [rewrite Ec; exact Hs|].
  exists ts', added, c', s, c'', f. rewrite Ec in Ec''. do 8 (split; [assumption|]). exact T'.
Qed.

Lemma bpe_stuck o n block : oracle_ok o -> forall fuel c ts, l_built ts -> ~ In [] (l_strings ts) -> length (l_tokens ts) <= 256 * 256 ->
  good_samples (lc_samples c) -> (block = 0 \/ forall w, In w (lc_samples c) -> In w (l_strings ts)) -> l_ntokens ts < n ->
  add_tokens_bpe fuel o c ts n block = OutOfFuel.
Proof.
  intros Ho. induction fuel as [|fuel IH]; intros c ts Hb Hn Hl Hs Hall Hlt; cbn [add_tokens_bpe].
  - destruct (Nat.ltb_spec (l_ntokens ts) n); [reflexivity|lia].
  - destruct (Nat.ltb_spec (l_ntokens ts) n); [|lia].
    destruct (bpe_round o c ts (Nat.min block (n - l_ntokens ts)) Ho Hb Hn Hl Hs) as (ts' & added & c' & s & c'' & f & E & E' & Ec & Hf & Hba & Hb' & Hn' & He' & T').
    rewrite E. cbn [bind]. rewrite E'. cbn [bind].
    assert (added = []) as ->.
    { destruct added as [|x added]; [reflexivity|]. exfalso. destruct Hall as [-> |Hall].
      - pose proof (ba_length _ _ _ _ _ Hba). cbn in H0. lia.
      - destruct (ba_cand _ _ _ _ _ Hba x (or_introl eq_refl)) as (k & Hk).
        eapply no_candidate; [apply l_built_ok; exact Hb|exact Hn|exact Hs|exact Hf|exact Hall|exact Hk]. }
    cbn [map] in T'. rewrite app_nil_r in T'. apply IH; auto.
    + rewrite T'; exact Hl.
    + rewrite Ec; exact Hs.
    + unfold l_strings. rewrite Ec, T'. exact Hall.
    + unfold l_ntokens. rewrite T', He'. exact Hlt.
Qed.

Definition grown (ts ts' : lset) (samples : list bstr) (n : nat) : Prop :=
  l_built ts' /\ l_enc ts' = l_enc ts /\ l_ntokens ts' = Nat.max n (l_ntokens ts) /\
  (exists added, l_tokens ts' = l_tokens ts ++ map (fun x => mkLtok x false) added /\
     forall x, In x added -> x <> [] /\ exists w a b, In w samples /\ w = a ++ x ++ b) /\
  forall k k', l_costs ts samples k -> l_costs ts' samples k' -> k' <= k /\ (l_ntokens ts < n -> k' < k).

Lemma bpe_ok o n block : oracle_ok o -> n <= 256 * 256 -> 1 <= block -> forall fuel c ts, n - l_ntokens ts <= fuel ->
  l_built ts -> ~ In [] (l_strings ts) -> good_samples (lc_samples c) ->
  (exists ts' c', add_tokens_bpe fuel o c ts n block = Ret (ts', c') /\ grown ts ts' (lc_samples c) n) \/
  ((forall fuel', add_tokens_bpe fuel' o c ts n block = OutOfFuel) /\
   exists l, l_ntokens ts + length l < n /\ forall w, In w (lc_samples c) -> In w (l_strings ts ++ l)).
Proof.
  intros Ho Hn16 Hblock. induction fuel as [|fuel IH]; intros c ts Hfuel Hb Hn Hs.
  - left. exists ts, c. cbn [add_tokens_bpe]. destruct (Nat.ltb_spec (l_ntokens ts) n); [lia|]. split; [reflexivity|].
    split; [exact Hb|]. split; [reflexivity|]. split; [lia|]. split.
    + exists []. cbn. rewrite app_nil_r. split; [reflexivity|intros x []].
    + intros k k' Hk Hk'. rewrite (l_costs_unique _ _ _ _ Hk Hk'). split; [apply Nat.le_refl|lia].
  - destruct (Nat.ltb_spec (l_ntokens ts) n) as [Hlt|Hge].
    2:{ left. exists ts, c. cbn [add_tokens_bpe]. destruct (Nat.ltb_spec (l_ntokens ts) n); [lia|]. split; [reflexivity|].
        split; [exact Hb|]. split; [reflexivity|]. split; [lia|]. split.
        + exists []. cbn. rewrite app_nil_r. split; [reflexivity|intros x []].
        + intros k k' Hk Hk'. rewrite (l_costs_unique _ _ _ _ Hk Hk'). split; [apply Nat.le_refl|lia]. }
    assert (Hl : length (l_tokens ts) <= 256 * 256) by (unfold l_ntokens in Hlt; lia).
    destruct (bpe_round o c ts (Nat.min block (n - l_ntokens ts)) Ho Hb Hn Hl Hs) as (ts1 & added & c' & s & c'' & f & E & E' & Ec & Hf & Hba & Hb' & Hn' & He' & T').
    pose proof (strings_app _ _ _ T') as Es. pose proof (l_built_ok _ Hb) as Hok. pose proof (l_built_ok _ Hb') as Hok'.
    assert (En : l_ntokens ts1 = l_ntokens ts + length added) by (unfold l_ntokens; rewrite T', He', app_length, map_length; lia).
    destruct (list_eq_dec (list_eq_dec Byte.byte_eq_dec) added []) as [Ha|Ha].
    { right. subst added. assert (Hall : forall w, In w (lc_samples c) -> In w (l_strings ts)).
      { intros w Hw. destruct (in_dec (list_eq_dec Byte.byte_eq_dec) w (l_strings ts)) as [Hin|Hnin]; [exact Hin|]. exfalso.
        destruct (candidate_exists ts f (lc_samples c) Hf w Hw (Hs w Hw) Hnin) as (x & k & Hc).
        pose proof (ba_all _ _ _ _ _ Hba ltac:(cbn; lia) x k Hc) as []. }
      split.
      - intros fuel'. apply bpe_stuck; auto.
      - exists []. cbn. rewrite app_nil_r. split; [lia|exact Hall]. }
    assert (Hpos : 0 < length added) by (destruct added; [exfalso; apply Ha; reflexivity|cbn; lia]).
    destruct (IH c'' ts1) as [(ts' & c3 & E3 & Hg)|(Hout & l & Hll & Hall)].
    + rewrite En. lia.
    + exact Hb'.
    + exact Hn'.
    + rewrite Ec; exact Hs.
    + left. exists ts', c3. split.
      { cbn [add_tokens_bpe]. destruct (Nat.ltb_spec (l_ntokens ts) n); [|lia]. rewrite E. cbn [bind]. rewrite E'. cbn [bind]. exact E3. }
      rewrite Ec in Hg. destruct Hg as (G1 & G2 & G3 & (l & G4 & G5) & G6). split; [exact G1|]. split; [congruence|].
      pose proof (ba_length _ _ _ _ _ Hba) as Hle.
      split; [lia|]. split.
      * exists (added ++ l). split.
        { rewrite G4, T', map_app, <- app_assoc. reflexivity. }
        intros x Hx. apply in_app_or in Hx as [Hx|Hx]; [|apply G5; exact Hx].
        destruct (ba_cand _ _ _ _ _ Hba _ Hx) as (k & Hk). destruct (candidate_new ts Hn f (lc_samples c) Hf _ _ Hk) as (_ & X & _).
        split; [exact X|]. eapply candidate_occurs; eassumption.
      * intros k k' Hk Hk'. destruct (costs_exist ts1 (lc_samples c) Hok' Hn') as (k1 & Hk1).
        destruct (G6 _ _ Hk1 Hk') as (Hle1 & _).
        destruct added as [|x added0]; [exfalso; apply Ha; reflexivity|].
        destruct (ba_cand _ _ _ _ _ Hba x (or_introl eq_refl)) as (m & Hm).
        assert (k1 < k).
        { eapply (candidate_cheaper ts ts1 f (lc_samples c) x m); eauto.
          - rewrite Es. intros y Hy. apply in_or_app; left; exact Hy.
          - rewrite Es. apply in_or_app; right; left; reflexivity. }
        split; [|intros _]; lia.
    + right. split.
      * intros [|fuel']; cbn [add_tokens_bpe]; (destruct (Nat.ltb_spec (l_ntokens ts) n); [|lia]); [reflexivity|].
        rewrite E. cbn [bind]. rewrite E'. cbn [bind]. apply Hout.
      * exists (added ++ l). rewrite app_length. split; [lia|]. rewrite Ec in Hall. intros w Hw. specialize (Hall w Hw).
        rewrite Es, <- app_assoc in Hall. exact Hall.
Qed.

Lemma bpe_mono o n block fuel : forall fuel' c ts r, fuel <= fuel' -> add_tokens_bpe fuel o c ts n block = Ret r -> add_tokens_bpe fuel' o c ts n block = Ret r.
Proof.
  induction fuel as [|fuel IH]; intros fuel' c ts r Hle E; cbn [add_tokens_bpe] in E; destruct fuel' as [|fuel']; cbn [add_tokens_bpe] in *;
    try lia; destruct (l_ntokens ts <? n); try exact E; try discriminate.
  destruct (add_tokens o c ts (Nat.min block (n - l_ntokens ts))) as [[[ts' a] c']| |]; try discriminate. cbn [bind] in *.
  destruct (l_get_stats o c' ts') as [[s c'']| |]; try discriminate. cbn [bind] in *. apply IH; [lia|exact E].
Qed.

Lemma bpe_mono_panic o n block fuel : forall fuel' c ts, fuel <= fuel' -> add_tokens_bpe fuel o c ts n block = Panic -> add_tokens_bpe fuel' o c ts n block = Panic.
Proof.
  induction fuel as [|fuel IH]; intros fuel' c ts Hle E; cbn [add_tokens_bpe] in E; destruct fuel' as [|fuel']; cbn [add_tokens_bpe] in *;
    try lia; destruct (l_ntokens ts <? n); try exact E; try discriminate.
  destruct (add_tokens o c ts (Nat.min block (n - l_ntokens ts))) as [[[ts' a] c']| |]; try discriminate; [|reflexivity]. cbn [bind] in *.
  destruct (l_get_stats o c' ts') as [[s c'']| |]; try discriminate; [|reflexivity]. cbn [bind] in *. apply IH; [lia|exact E].
Qed.

(** ** C80
    [add_tokens]: of the candidates (literals and pairs of neighbouring tokens in the
    cheapest cutting), the [n] of most value become tokens, or all if there are
    fewer. *)
Theorem C80_add_tokens o c ts n : oracle_ok o -> l_built ts -> ~ In [] (l_strings ts) -> length (l_tokens ts) <= 256 * 256 ->
  good_samples (lc_samples c) ->
  exists ts' added c' f, add_tokens o c ts n = Ret (ts', added, c') /\ l_built ts' /\ l_enc ts' = l_enc ts /\
    l_tokens ts' = l_tokens ts ++ map (fun x => mkLtok x false) added /\
    (forall w, l_canonical ts (f w) w) /\ NoDup added /\ length added <= n /\
    (forall x, In x added -> ~ In x (l_strings ts) /\ exists m, candidate ts f (lc_samples c) x m) /\
    (length added < n -> forall x m, candidate ts f (lc_samples c) x m -> In x added) /\
    (forall x m y k, In x added -> candidate ts f (lc_samples c) x m -> candidate ts f (lc_samples c) y k -> ~ In y added ->
       worth ts y k <= worth ts x m) /\
    forall k k', l_costs ts (lc_samples c) k -> l_costs ts' (lc_samples c) k' -> (added = [] -> k' = k) /\ (added <> [] -> k' < k).
Proof.
  intros Ho Hb Hn Hl Hs. destruct (add_tokens_ok o c ts n Ho Hb Hn Hl Hs) as (ts' & added & c' & f & E & Ec & Hf & Hba & Hb' & He' & T').
  exists ts', added, c', f. do 5 (split; [assumption|]). split; [apply Hba|]. split; [apply Hba|]. split.
  { intros x Hx. destruct (ba_cand _ _ _ _ _ Hba _ Hx) as (m & Hm). split; [|exists m; exact Hm].
    apply (candidate_new ts Hn f (lc_samples c) Hf _ _ Hm). }
  split; [apply Hba|]. split; [apply Hba|]. intros k k' Hk Hk'. split.
  - intros ->. cbn in T'. rewrite app_nil_r in T'. eapply l_costs_unique; [exact Hk'|].
    apply (l_costs_same ts ts'); auto using l_built_ok. unfold l_strings. rewrite T'. reflexivity.
  - intros Ha. destruct added as [|x added]; [exfalso; apply Ha; reflexivity|].
    destruct (ba_cand _ _ _ _ _ Hba x (or_introl eq_refl)) as (m & Hm). pose proof (strings_app _ _ _ T') as Es.
    eapply (candidate_cheaper ts ts' f (lc_samples c) x m); eauto using l_built_ok.
    + rewrite Es. intros y Hy. apply in_or_app; left; exact Hy.
    + rewrite Es. apply in_or_app; right; left; reflexivity.
Qed.

(** [add_tokens_bpe]: it never panics; it returns a set of exactly the size asked for (or the
    one given, if larger), which keeps the tokens in their places, adds strings of the samples
    and costs less - or, if it does not end, all samples together with the old tokens are fewer
    than asked for. *)
Theorem C80_bpe_partial o c ts n block : oracle_ok o -> n <= 256 * 256 -> 1 <= block ->
  l_built ts -> ~ In [] (l_strings ts) -> good_samples (lc_samples c) ->
  (forall fuel, add_tokens_bpe fuel o c ts n block <> Panic) /\
  ((exists ts' c', (forall fuel, n <= fuel -> add_tokens_bpe fuel o c ts n block = Ret (ts', c')) /\ grown ts ts' (lc_samples c) n) \/
   ((forall fuel, add_tokens_bpe fuel o c ts n block = OutOfFuel) /\
    exists l, l_ntokens ts + length l < n /\ forall w, In w (lc_samples c) -> In w (l_strings ts ++ l))) /\
  forall l, NoDup l -> incl l (lc_samples c) -> n <= length l -> exists ts' c', forall fuel, n <= fuel -> add_tokens_bpe fuel o c ts n block = Ret (ts', c').
Proof.
  intros Ho Hn16 Hblock Hb Hn Hs.
  pose proof (bpe_mono o n block) as Hmono. pose proof (bpe_mono_panic o n block) as Hmonop.
  destruct (bpe_ok o n block Ho Hn16 Hblock n c ts ltac:(lia) Hb Hn Hs) as [(ts' & c' & E & Hg)|(Hout & l & Hlen & Hall)].
  - split; [|split].
    + intros fuel Hp. destruct (le_lt_dec fuel n) as [Hle|Hle].
      * rewrite (Hmonop _ n _ _ Hle Hp) in E. discriminate E.
      * rewrite (Hmono n fuel c ts _ ltac:(lia) E) in Hp. discriminate Hp.
    + left. exists ts', c'. split; [|exact Hg]. intros fuel Hle. apply (Hmono n fuel); auto.
    + intros l _ _ _. exists ts', c'. intros fuel Hle. apply (Hmono n fuel); auto.
  - split; [|split].
    + intros fuel Hp. rewrite Hout in Hp. discriminate Hp.
    + right. split; [exact Hout|]. exists l. auto.
    + intros l' Hnd Hincl Hle. exfalso.
      assert (length l' <= length (l_strings ts ++ l)).
      { apply NoDup_incl_length; [exact Hnd|]. intros w Hw. apply Hall, Hincl, Hw. }
      rewrite app_length in H. unfold l_strings in H. rewrite map_length in H. unfold l_ntokens in Hlen. lia.
Qed.

(** It is not true that it always ends: when every sample has become a token, or with a block of
    size 0. *)
Theorem C80_bpe_refuted :
  (forall o block, oracle_ok o -> exists ts samples n, l_built ts /\ ~ In [] (l_strings ts) /\ good_samples samples /\
     forall fuel, add_tokens_bpe fuel o (lcache_new samples) ts n block = OutOfFuel) /\
  (forall o c ts n, oracle_ok o -> l_built ts -> ~ In [] (l_strings ts) -> good_samples (lc_samples c) -> n <= 256 * 256 ->
     l_ntokens ts < n -> forall fuel, add_tokens_bpe fuel o c ts n 0 = OutOfFuel).
Proof.
  split.
  - intros o block Ho. exists (set1 la), [la], 3. pose proof (set1_built la) as Hb.
    assert (Hn : ~ In [] (l_strings (set1 la))) by (cbn; intros [H|[]]; discriminate H).
    assert (Hg : good_samples [la]) by (intros w [<-|[]]; discriminate).
    split; [exact Hb|]. split; [exact Hn|]. split; [exact Hg|]. intros fuel. apply bpe_stuck; auto. change (length (l_tokens (set1 la))) with 1. lia.
  - intros o c ts n Ho Hb Hn Hs Hn16 Hlt fuel. apply bpe_stuck; auto. unfold l_ntokens in Hlt. lia.
Qed.

(** A case: from the empty set to four tokens. *)
Example C80_example : exists ts' c', (forall fuel, 4 <= fuel ->
  add_tokens_bpe fuel plain_oracle (lcache_new [map n2b [97; 98]; map n2b [97; 99]; map n2b [98; 99]; la]) (mkLset [] [] LDist8) 4 1 = Ret (ts', c')).
Proof.
  apply (C80_bpe_partial plain_oracle _ (mkLset [] [] LDist8) 4 1 plain_oracle_ok) with (l := [map n2b [97; 98]; map n2b [97; 99]; map n2b [98; 99]; la]).
  - lia.
  - lia.
  - apply (lb_new LDist8). reflexivity.
  - intros [].
  - intros w H. cbn in H. destruct H as [<-|[<-|[<-|[<-|[]]]]]; discriminate.
  - repeat (constructor; [cbn; intros H; repeat destruct H as [H|H]; try discriminate H; try destruct H|]). constructor.
  - intros x Hx; exact Hx.
  - apply Nat.le_refl.
Qed.
