(** * The older optimizer: costs of token sets, the cache. *)
From Verif Require Import Base BaseLemmas SortLemmas LegacyModel LegacySpec LegacyTok PropLegacyTok LegacyOptModel.
From Verif Require TokenizerProof1.
From Coq Require Import ZArith Sorted Permutation.

(** ** Moving a segmentation to another token set *)
Definition tr (ts ts' : lset) (x : tidx) : tidx :=
  match x with
  | LTok i =>
      match nth_error (l_strings ts) i with
      | Some s => match sget (l_by_str ts') s with Some j => LTok j | None => LNone end
      | None => LNone
      end
  | _ => x
  end.

Lemma tr_string ts ts' x y : l_ok ts' -> incl (l_strings ts) (l_strings ts') ->
  l_piece_string ts x = Some y -> l_piece_string ts' (tr ts ts' x) = Some y.
Proof.
  intros Hok Hi. destruct x as [i|b|]; cbn; [|auto|discriminate]. intros H. rewrite H.
  pose proof (Hi y (nth_error_In _ _ H)) as Hin. apply (indexes_In _ _ _ Hok) in Hin as (j & Hj).
  rewrite Hj. cbn. apply Hok; exact Hj.
Qed.

Lemma tr_cost ts ts' x y e : l_ok ts' -> incl (l_strings ts) (l_strings ts') ->
  l_piece_string ts x = Some y -> l_piece_cost e (tr ts ts' x) = l_piece_cost e x.
Proof.
  intros Hok Hi. destruct x as [i|b|]; cbn; [|auto|discriminate]. intros H. rewrite H.
  pose proof (Hi y (nth_error_In _ _ H)) as Hin. apply (indexes_In _ _ _ Hok) in Hin as (j & Hj).
  rewrite Hj. reflexivity.
Qed.

Lemma tr_segments ts ts' xs w : l_ok ts' -> incl (l_strings ts) (l_strings ts') ->
  l_segments ts xs w -> l_segments ts' (map (tr ts ts') xs) w.
Proof.
  intros Hok Hi. induction 1 as [|x xs s r Hp _ IH]; cbn; constructor; auto. apply tr_string; auto.
Qed.

Lemma tr_seg_cost ts ts' xs w e : l_ok ts' -> incl (l_strings ts) (l_strings ts') ->
  l_segments ts xs w -> l_seg_cost e (map (tr ts ts') xs) = l_seg_cost e xs.
Proof.
  intros Hok Hi. unfold l_seg_cost. induction 1 as [|x xs s r Hp _ IH]; [reflexivity|].
  cbn [map]. change (sum (?a :: ?r)) with (a + sum r). rewrite IH. f_equal. eapply tr_cost; eauto.
Qed.

(** More tokens never cost more. *)
Lemma more_tokens ts ts' xs ys w : l_ok ts' -> l_enc ts = l_enc ts' -> incl (l_strings ts) (l_strings ts') ->
  l_segments ts xs w -> l_optimal ts' ys w -> l_seg_cost (l_enc ts') ys <= l_seg_cost (l_enc ts) xs.
Proof.
  intros Hok He Hi Hs (_ & Hmin). rewrite He. rewrite <- (tr_seg_cost ts ts' xs w) by assumption.
  apply Hmin. apply tr_segments; assumption.
Qed.

Section Same.
Variables ts ts' : lset.
Hypothesis Hok : l_ok ts.
Hypothesis Hok' : l_ok ts'.
Hypothesis He : l_enc ts = l_enc ts'.
Hypothesis Hp : Permutation (l_strings ts) (l_strings ts').

Lemma same_incl : incl (l_strings ts) (l_strings ts').
Proof. intros x Hx. eapply Permutation_in; eassumption. Qed.
Lemma same_incl' : incl (l_strings ts') (l_strings ts).
Proof. intros x Hx. eapply Permutation_in; [apply Permutation_sym|]; eassumption. Qed.

Lemma tr_inverse x y : l_piece_string ts x = Some y -> tr ts' ts (tr ts ts' x) = x.
Proof.
  destruct x as [i|b|]; [|reflexivity|discriminate]. cbn. intros H. rewrite H.
  pose proof (same_incl y (nth_error_In _ _ H)) as Hin. apply (indexes_In _ _ _ Hok') in Hin as (j & Hj).
  rewrite Hj. cbn. apply Hok' in Hj. rewrite Hj. apply Hok in H. rewrite H. reflexivity.
Qed.

Lemma tr_inverse_seg xs w : l_segments ts xs w -> map (tr ts' ts) (map (tr ts ts') xs) = xs.
Proof.
  induction 1 as [|x xs s r Hx _ IH]; [reflexivity|]. cbn. rewrite IH. f_equal. eapply tr_inverse; exact Hx.
Qed.

Lemma tr_optimal xs w : l_optimal ts xs w -> l_optimal ts' (map (tr ts ts') xs) w.
Proof.
  intros (Hs & Hmin). split; [apply tr_segments; auto using same_incl|].
  intros ys Hys. rewrite <- He, (tr_seg_cost ts ts' xs w) by (auto using same_incl).
  rewrite <- (tr_seg_cost ts' ts ys w) by (auto using same_incl').
  apply Hmin. apply tr_segments; auto using same_incl'.
Qed.
End Same.

Lemma tr_canonical ts ts' xs w : l_ok ts -> l_ok ts' -> l_enc ts = l_enc ts' -> Permutation (l_strings ts) (l_strings ts') ->
  l_canonical ts xs w -> l_canonical ts' (map (tr ts ts') xs) w.
Proof.
  intros Hok Hok' He Hp (Hopt & Hlong). split; [apply tr_optimal; assumption|].
  intros a' x' b' s y E Ha Hx zs z y' Hz Hy'.
  apply map_eq_app in E as (a & r & -> & <- & Er). apply map_eq_cons in Er as (x & b & -> & <- & <-).
  destruct Hopt as (Hs & _). apply l_seg_app_inv in Hs as (s1 & t1 & -> & Hs1 & Hs2).
  inversion Hs2 as [|? ? y1 r1 Hy1 _]; subst.
  pose proof (tr_segments ts ts' _ _ Hok' (same_incl ts ts' Hp) Hs1) as Hs1'.
  rewrite (l_seg_fun _ _ _ _ Ha Hs1') in *.
  rewrite (tr_string ts ts' x y1 Hok' (same_incl ts ts' Hp) Hy1) in Hx. injection Hx as <-.
  apply (Hlong a x b s1 y1 eq_refl Hs1 Hy1 (map (tr ts' ts) zs) (tr ts' ts z)).
  - pose proof (tr_optimal ts' ts Hok' Hok (eq_sym He) (Permutation_sym Hp) _ _ Hz) as H.
    rewrite map_app in H. exact H.
  - apply (tr_string ts' ts); auto. apply same_incl'; exact Hp.
Qed.

(** The canonical segmentation is unique. *)
Lemma same_length_piece ts x z y y' w e : l_ok ts -> l_piece_string ts x = Some y -> l_piece_string ts z = Some y' ->
  TokenizerProof1.suffix_of y w -> TokenizerProof1.suffix_of y' w -> length y = length y' ->
  l_piece_cost e x = l_piece_cost e z -> x = z.
Proof.
  intros Hok Hx Hz Hs Hs' Hl Hc. pose proof (TokenizerProof1.suffix_eq _ _ _ Hs Hs' Hl) as <-.
  destruct x as [i|b|]; [| |discriminate]; (destruct z as [i'|b'|]; [| |discriminate]); cbn in *.
  - apply Hok in Hx, Hz. congruence.
  - pose proof (literal_cost_pos e). lia.
  - pose proof (literal_cost_pos e). lia.
  - congruence.
Qed.

Lemma canonical_prefix ts xs x s y : l_segments ts xs s -> l_piece_string ts x = Some y ->
  l_canonical ts (xs ++ [x]) (s ++ y) -> l_canonical ts xs s.
Proof.
  intros Hs Hy ((_ & Hmin) & Hlong). split.
  - split; [exact Hs|]. intros ys Hys. specialize (Hmin (ys ++ [x]) (l_seg_snoc _ _ _ _ _ Hys Hy)).
    rewrite !l_seg_cost_snoc in Hmin. lia.
  - intros a x0 b s0 y0 E Ha Hx0. apply (Hlong a x0 (b ++ [x]) s0 y0); auto. rewrite E, <- app_assoc. reflexivity.
Qed.

Lemma optimal_prefix ts xs x s y : l_segments ts xs s -> l_piece_string ts x = Some y ->
  l_optimal ts (xs ++ [x]) (s ++ y) -> l_optimal ts xs s.
Proof.
  intros Hs Hy (_ & Hmin). split; [exact Hs|]. intros ys Hys. specialize (Hmin (ys ++ [x]) (l_seg_snoc _ _ _ _ _ Hys Hy)).
  rewrite !l_seg_cost_snoc in Hmin. lia.
Qed.

Lemma segs_nil ts xs : ~ In [] (l_strings ts) -> l_segments ts xs [] -> xs = [].
Proof.
  intros Hn H. inversion H as [|x xs' s r Hp Hr E1 E2]; [reflexivity|]. apply app_eq_nil in E2 as [-> _].
  apply (piece_nonempty ts Hn) in Hp. congruence.
Qed.

Lemma canonical_unique ts : l_ok ts -> ~ In [] (l_strings ts) ->
  forall xs ys w, l_canonical ts xs w -> l_canonical ts ys w -> xs = ys.
Proof.
  intros Hok Hn xs. induction xs as [|x xs IH] using rev_ind; intros ys w Hx Hy.
  - destruct Hx as ((Hx & _) & _). inversion Hx; subst. symmetry. apply (segs_nil ts _ Hn). apply Hy.
  - destruct ys as [|z ys _] using rev_ind.
    { destruct Hy as ((Hy & _) & _). inversion Hy; subst. apply (segs_nil ts _ Hn). apply Hx. }
    pose proof Hx as ((Hxs & Hxm) & Hxl). pose proof Hy as ((Hys & Hym) & Hyl).
    apply l_seg_app_inv in Hxs as (s & y & Ew & Hs & Hsx). apply l_seg_single in Hsx.
    apply l_seg_app_inv in Hys as (s' & y' & Ew' & Hs' & Hsy). apply l_seg_single in Hsy.
    assert (L1 : length y' <= length y).
    { apply (Hxl xs x [] s y eq_refl Hs Hsx ys z y'); [rewrite <- Ew; apply Hy|exact Hsy]. }
    assert (L2 : length y <= length y').
    { apply (Hyl ys z [] s' y' eq_refl Hs' Hsy xs x y); [rewrite <- Ew'; apply Hx|exact Hsx]. }
    assert (Ey : y = y').
    { apply (TokenizerProof1.suffix_eq _ _ w); [exists s; exact Ew|exists s'; exact Ew'|lia]. }
    subst y'. assert (Es : s = s') by (rewrite Ew in Ew'; apply app_inv_tail in Ew'; exact Ew').
    subst s' w.
    assert (Ecost : l_piece_cost (l_enc ts) x = l_piece_cost (l_enc ts) z).
    { pose proof (Hxm _ (proj1 (proj1 Hy))) as C1. pose proof (Hym _ (proj1 (proj1 Hx))) as C2.
      rewrite !l_seg_cost_snoc in C1, C2.
      destruct (optimal_prefix _ _ _ _ _ Hs Hsx (proj1 Hx)) as (_ & O1). destruct (optimal_prefix _ _ _ _ _ Hs' Hsy (proj1 Hy)) as (_ & O2).
      specialize (O1 _ Hs'). specialize (O2 _ Hs). lia. }
    assert (x = z) as <-.
    { eapply (same_length_piece ts x z y y (s ++ y)); try eassumption; try reflexivity; exists s; reflexivity. }
    f_equal. eapply IH; eapply canonical_prefix; eassumption.
Qed.

Lemma l_costs_unique ts samples c c' : l_costs ts samples c -> l_costs ts samples c' -> c = c'.
Proof.
  intros (f & Hf & ->) (g & Hg & ->). f_equal. apply map_ext. intros w.
  apply Nat.le_antisymm; [apply (Hf w), (Hg w)|apply (Hg w), (Hf w)].
Qed.

Lemma l_costs_perm ts l l' c : Permutation l l' -> l_costs ts l c -> l_costs ts l' c.
Proof.
  intros Hp (f & Hf & ->). exists f. split; [exact Hf|].
  assert (G : forall a b : list nat, Permutation a b -> sum a = sum b).
  { clear. induction 1; cbn; unfold sum in *; lia. }
  apply G, Permutation_map, Hp.
Qed.

Lemma l_costs_same ts ts' samples c : l_ok ts -> l_ok ts' -> l_enc ts = l_enc ts' -> Permutation (l_strings ts) (l_strings ts') ->
  l_costs ts samples c -> l_costs ts' samples c.
Proof.
  intros Hok Hok' He Hp (f & Hf & ->). exists (fun w => map (tr ts ts') (f w)). split.
  - intros w. apply tr_optimal; auto.
  - f_equal. apply map_ext. intros w. rewrite <- He. symmetry. eapply tr_seg_cost; [exact Hok'|apply same_incl; exact Hp|apply Hf].
Qed.

(** ** The cache key *)

Lemma key_inj (l l' : list bstr) : (forall s, In s l -> ~ In (n2b 0) s) -> (forall s, In s l' -> ~ In (n2b 0) s) ->
  flat_map (fun s => s ++ [n2b 0]) l = flat_map (fun s => s ++ [n2b 0]) l' -> l = l'.
Proof.
  revert l'. induction l as [|s l IH]; intros [|s' l'] H H' E.
  - reflexivity.
  - cbn in E. destruct s'; discriminate.
  - cbn in E. destruct s; discriminate.
  - cbn [flat_map] in E. rewrite <- !app_assoc in E. cbn [app] in E.
    assert (G : forall a b r r', ~ In (n2b 0) a -> ~ In (n2b 0) b -> a ++ n2b 0 :: r = b ++ n2b 0 :: r' -> a = b /\ r = r').
    { clear. induction a as [|x a IHa]; intros [|y b] r r' Ha Hb E; cbn in E.
      - injection E as E. auto.
      - injection E as E1 E2. exfalso. apply Hb. left. symmetry. exact E1.
      - injection E as E1 E2. exfalso. apply Ha. left. exact E1.
      - injection E as -> E2. destruct (IHa b r r') as [-> ->]; auto.
        + intros X; apply Ha; right; exact X.
        + intros X; apply Hb; right; exact X. }
    apply G in E as [-> E]; [|apply H; left; reflexivity|apply H'; left; reflexivity].
    f_equal. apply IH; [intros x Hx; apply H; right; exact Hx|intros x Hx; apply H'; right; exact Hx|exact E].
Qed.

Lemma l_key_perm ts ts' : (forall s, In s (l_strings ts) -> ~ In (n2b 0) s) -> (forall s, In s (l_strings ts') -> ~ In (n2b 0) s) ->
  l_key ts = l_key ts' -> Permutation (l_strings ts) (l_strings ts').
Proof.
  unfold l_key. fold (l_strings ts) (l_strings ts'). intros H H' E. apply key_inj in E.
  - etransitivity; [apply Permutation_sym; apply (sort_perm (fun a b => cmp_leb (bstr_cmp a b)))|]. rewrite E. apply sort_perm.
  - intros s Hs. apply H. eapply Permutation_in; [apply sort_perm|exact Hs].
  - intros s Hs. apply H'. eapply Permutation_in; [apply sort_perm|exact Hs].
Qed.

Lemma clean_facts ts : clean ts -> l_ok ts /\ ~ In [] (l_strings ts) /\ forall s, In s (l_strings ts) -> ~ In (n2b 0) s.
Proof.
  intros (Hb & H). split; [apply l_built_ok; exact Hb|]. split; [intros Hin; apply (proj1 (H [] Hin)); reflexivity|].
  intros s Hs; apply (H s Hs).
Qed.

(** ** Tokenizing the samples of a cache *)
Definition good_samples (l : list bstr) : Prop := forall w, In w l -> w <> [].

Lemma count_occ_perm (l l' : list tidx) x : Permutation l l' -> count_occ tidx_eq_dec l x = count_occ tidx_eq_dec l' x.
Proof. induction 1; cbn; repeat destruct (tidx_eq_dec _ _); congruence. Qed.

Lemma flat_map_perm {A B} (f : A -> list B) l l' : Permutation l l' -> Permutation (flat_map f l) (flat_map f l').
Proof.
  induction 1; cbn; auto.
  - apply Permutation_app_head; assumption.
  - rewrite !app_assoc. apply Permutation_app_tail, Permutation_app_comm.
  - etransitivity; eassumption.
Qed.

Lemma filter_perm {A} (p : A -> bool) l l' : Permutation l l' -> Permutation (filter p l) (filter p l').
Proof.
  induction 1; cbn; auto.
  - destruct (p x); auto.
  - destruct (p x), (p y); auto. apply perm_swap.
  - etransitivity; eassumption.
Qed.

Lemma l_total_perm ts ps f l l' s : Permutation l l' -> l_total ts ps f l s -> l_total ts ps f l' s.
Proof.
  intros Hp [T1 T2 T3 T4 T5 T6 T7 T8 T9]. constructor; auto.
  - intros i. rewrite T3. apply count_occ_perm, flat_map_perm, Hp.
  - intros b. rewrite T5. apply count_occ_perm, flat_map_perm, Hp.
  - rewrite T6. clear - Hp. induction Hp; cbn; rewrite ?app_length in *; lia.
  - intros k. rewrite T9. destruct ps; [|reflexivity].
    apply Permutation_length, filter_perm, flat_map_perm, Hp.
Qed.

Lemma tokenize_samples o k ts ps samples : oracle_ok o -> l_ok ts -> ~ In [] (l_strings ts) -> good_samples samples ->
  exists f s, (forall w, l_canonical ts (f w) w) /\
    l_tokenize ts ps (o_dist o k samples) = Ret s /\ l_total ts ps f samples s /\ l_costs ts samples (l_cost s).
Proof.
  intros Ho Hok Hn Hs. destruct (l_tokenize_ok ts Hok Hn) as (f & Hf & H).
  pose proof (o_dist_ok _ Ho k samples) as Hp.
  destruct (H ps (o_dist o k samples)) as (s & E & Ht).
  { intros w Hw. apply Hs. eapply Permutation_in; [exact Hp|exact Hw]. }
  pose proof (l_total_perm _ _ _ _ _ _ Hp Ht) as Ht'.
  exists f, s. split; [exact Hf|]. split; [exact E|]. split; [exact Ht'|].
  exists f. split; [intros w; apply (Hf w)|]. eapply l_cost_total; [exact Ht'|]. intros w; apply (Hf w).
Qed.

(** ** What a cache holds *)
Record cache_good (e : lenc) (c : lcache) : Prop := {
  cg_samples : good_samples (lc_samples c);
  cg_map : forall k s, sget (lc_map c) k = Some s ->
    exists ts f, clean ts /\ l_enc ts = e /\ l_key ts = k /\ (forall w, l_canonical ts (f w) w) /\
      l_total ts false f (lc_samples c) s
}.

Lemma cache_new_good e samples : good_samples samples -> cache_good e (lcache_new samples).
Proof. intros H. constructor; [exact H|]. intros k s E; discriminate. Qed.

Lemma l_total_no_pairs ts ps f l s : l_total ts ps f l s -> l_total ts false f l (no_pairs s).
Proof.
  intros [T1 T2 T3 T4 T5 T6 T7 T8 T9]. constructor; cbn; auto; [constructor|contradiction].
Qed.

Lemma cache_insert e c ts f ps s n : cache_good e c -> clean ts -> l_enc ts = e -> (forall w, l_canonical ts (f w) w) ->
  l_total ts ps f (lc_samples c) s ->
  cache_good e (mkLcache (lc_samples c) (sinsert (lc_map c) (l_key ts) (no_pairs s)) n).
Proof.
  intros [G1 G2] Hc He Hf Ht. constructor; cbn [lc_samples lc_map]; [exact G1|].
  intros k s' E. rewrite sget_sinsert in E. destruct (bstr_eqb_spec k (l_key ts)) as [->|_]; [|apply G2; exact E].
  injection E as <-. exists ts, f. repeat split; try apply Hc; auto; try apply (l_total_no_pairs _ _ _ _ _ Ht); try apply Hf.
Qed.

Lemma with_pairs_ok o e c ts : oracle_ok o -> cache_good e c -> clean ts -> l_enc ts = e ->
  exists f s c', get_stats_with_pairs o c ts = Ret (s, c') /\ (forall w, l_canonical ts (f w) w) /\
    l_total ts true f (lc_samples c) s /\ cache_good e c' /\ lc_samples c' = lc_samples c.
Proof.
  intros Ho Hg Hc He. destruct (clean_facts ts Hc) as (Hok & Hn & _).
  destruct (tokenize_samples o (lc_calls c) ts true (lc_samples c) Ho Hok Hn (cg_samples _ _ Hg)) as (f & s & Hf & E & Ht & _).
  unfold get_stats_with_pairs. rewrite E. cbn [bind]. exists f, s. eexists. split; [reflexivity|].
  split; [exact Hf|]. split; [exact Ht|]. split; [|reflexivity]. eapply cache_insert; eassumption.
Qed.

(** [get_stats] returns the statistics up to the order of the tokens: those of
    a token set [ts'] with the same strings. *)
Lemma get_stats_ok o e c ts : oracle_ok o -> cache_good e c -> clean ts -> l_enc ts = e ->
  exists ts' f s c', l_get_stats o c ts = Ret (s, c') /\
    clean ts' /\ l_enc ts' = e /\ Permutation (l_strings ts) (l_strings ts') /\
    (forall w, l_canonical ts' (f w) w) /\
    l_total ts' false f (lc_samples c) s /\ l_costs ts (lc_samples c) (l_cost s) /\
    cache_good e c' /\ lc_samples c' = lc_samples c.
Proof.
  intros Ho Hg Hc He. destruct (clean_facts ts Hc) as (Hok & Hn & Hz). unfold l_get_stats.
  destruct (sget (lc_map c) (l_key ts)) as [s|] eqn:Es.
  - destruct (cg_map _ _ Hg _ _ Es) as (ts' & f & Hc' & He' & Hk & Hf & Ht).
    destruct (clean_facts ts' Hc') as (Hok' & Hn' & Hz').
    assert (Hp : Permutation (l_strings ts) (l_strings ts')) by (apply l_key_perm; auto).
    exists ts', f, s, c. split; [reflexivity|]. do 5 (split; [assumption|]).
    split; [|auto]. apply (l_costs_same ts' ts); auto; [congruence|apply Permutation_sym; exact Hp|].
    exists f. split; [intros w; apply (Hf w)|]. eapply l_cost_total; [exact Ht|]. intros w; apply (Hf w).
  - destruct (tokenize_samples o (lc_calls c) ts false (lc_samples c) Ho Hok Hn (cg_samples _ _ Hg)) as (f & s & Hf & E & Ht & Hcost).
    rewrite E. cbn [bind]. exists ts, f, s. eexists. split; [reflexivity|]. split; [exact Hc|]. split; [exact He|].
    split; [reflexivity|]. split; [exact Hf|]. split; [exact Ht|]. split; [exact Hcost|]. split; [|reflexivity].
    eapply cache_insert; eassumption.
Qed.
