(** * The older optimizer: what the pairs of neighbouring tokens stand for. *)
From Verif Require Import Base BaseLemmas LegacyModel LegacySpec LegacyTok PropLegacyTok LegacyOptModel LegacyOptProof LegacyBytesProof.
From Coq Require Import ZArith Sorted Permutation.

Lemma adj_in xs i j : In (i, j) (l_adj xs) -> exists a b, xs = a ++ LTok i :: LTok j :: b.
Proof.
  induction xs as [|x xs IH]; [intros []|]. cbn [l_adj]. intros H.
  assert (G : In (i, j) (l_adj xs) -> exists a b, x :: xs = a ++ LTok i :: LTok j :: b).
  { intros Hin. destruct (IH Hin) as (a & b & ->). exists (x :: a), b. reflexivity. }
  destruct x as [k|c|]; [|auto|auto]. destruct xs as [|[k'|c'|] xs']; try (apply G; exact H).
  destruct H as [E|H]; [|apply G; exact H]. injection E as -> ->. exists [], xs'. reflexivity.
Qed.

Lemma adj_exists xs : (forall x, In x xs -> exists i, x = LTok i) -> 2 <= length xs -> exists i j, In (i, j) (l_adj xs).
Proof.
  intros H Hl. destruct xs as [|x [|y xs]]; cbn in Hl; try lia.
  destruct (H x (or_introl eq_refl)) as (i & ->). destruct (H y (or_intror (or_introl eq_refl))) as (j & ->).
  exists i, j. left. reflexivity.
Qed.

Section Pairs.
Variable ts : lset.
Hypothesis Hok : l_ok ts.
Hypothesis Hn : ~ In [] (l_strings ts).

(** Two neighbouring tokens together are not a token. *)
Lemma pair_new a i j b w x y : l_optimal ts (a ++ LTok i :: LTok j :: b) w ->
  nth_error (l_strings ts) i = Some x -> nth_error (l_strings ts) j = Some y -> ~ In (x ++ y) (l_strings ts).
Proof.
  intros (Hs & Hmin) Hx Hy Hin. apply In_nth_error in Hin as (k & Hk).
  apply l_seg_app_inv in Hs as (s & t & -> & H1 & H2).
  inversion H2 as [|? ? x' r Hx' Hr]; subst. inversion Hr as [|? ? y' r' Hy' Hr']; subst.
  cbn in Hx', Hy'. rewrite Hx in Hx'. injection Hx' as <-. rewrite Hy in Hy'. injection Hy' as <-.
  assert (Hs' : l_segments ts (a ++ LTok k :: b) (s ++ x ++ y ++ r')).
  { apply l_seg_app; [exact H1|]. rewrite app_assoc. constructor; [exact Hk|exact Hr']. }
  apply Hmin in Hs'. unfold l_seg_cost in Hs'. rewrite !map_app, !sum_app in Hs'. cbn [map] in Hs'.
  rewrite !sum_cons in Hs'. cbn [l_piece_cost] in Hs'. lia.
Qed.

(** Two pairs that give the same string are the same pair. *)
Lemma pair_longest a i j b w x y : l_canonical ts (a ++ LTok i :: LTok j :: b) w ->
  nth_error (l_strings ts) i = Some x -> nth_error (l_strings ts) j = Some y ->
  forall i' j' x' y', nth_error (l_strings ts) i' = Some x' -> nth_error (l_strings ts) j' = Some y' ->
  x ++ y = x' ++ y' -> length y' <= length y.
Proof.
  intros ((Hs & Hmin) & Hlong) Hx Hy i' j' x' y' Hx' Hy' E.
  apply l_seg_app_inv in Hs as (s & t & -> & H1 & H2).
  inversion H2 as [|? ? x0 r Hx0 Hr]; subst. inversion Hr as [|? ? y0 r' Hy0 Hr']; subst.
  cbn in Hx0, Hy0. rewrite Hx in Hx0. injection Hx0 as <-. rewrite Hy in Hy0. injection Hy0 as <-.
  apply (Hlong (a ++ [LTok i]) (LTok j) b (s ++ x) y) with (zs := a ++ [LTok i']) (z := LTok j').
  - rewrite <- app_assoc. reflexivity.
  - apply l_seg_snoc; [exact H1|exact Hx].
  - exact Hy.
  - assert (Eu : (s ++ x) ++ y = (s ++ x') ++ y') by (rewrite <- !app_assoc, E; reflexivity).
    split.
    + rewrite Eu. apply l_seg_snoc; [|exact Hy']. apply l_seg_snoc; [exact H1|exact Hx'].
    + intros ys Hys. specialize (Hmin (ys ++ b)).
      assert (Hs' : l_segments ts (ys ++ b) (s ++ x ++ y ++ r')).
      { replace (s ++ x ++ y ++ r') with (((s ++ x) ++ y) ++ r') by (rewrite <- !app_assoc; reflexivity).
        apply l_seg_app; [exact Hys|exact Hr']. }
      apply Hmin in Hs'. unfold l_seg_cost in *. rewrite !map_app, !sum_app in *. cbn [map] in *.
      rewrite !sum_cons in *. cbn [l_piece_cost] in *. change (sum []) with 0 in *. lia.
  - exact Hy'.
Qed.

Lemma pair_unique a i j b w x y a' i' j' b' w' x' y' :
  l_canonical ts (a ++ LTok i :: LTok j :: b) w -> l_canonical ts (a' ++ LTok i' :: LTok j' :: b') w' ->
  nth_error (l_strings ts) i = Some x -> nth_error (l_strings ts) j = Some y ->
  nth_error (l_strings ts) i' = Some x' -> nth_error (l_strings ts) j' = Some y' ->
  x ++ y = x' ++ y' -> i = i' /\ j = j'.
Proof.
  intros Hc Hc' Hx Hy Hx' Hy' E.
  pose proof (pair_longest _ _ _ _ _ _ _ Hc Hx Hy _ _ _ _ Hx' Hy' E) as L1.
  pose proof (pair_longest _ _ _ _ _ _ _ Hc' Hx' Hy' _ _ _ _ Hx Hy (eq_sym E)) as L2.
  assert (El : length x = length x') by (apply (f_equal (@length byte)) in E; rewrite !app_length in E; lia).
  assert (x = x' /\ y = y') as [<- <-].
  { clear - E El. revert x' El E. induction x as [|c x IH]; intros [|c' x'] El E; try discriminate.
    - auto.
    - injection E as -> E. cbn in El. destruct (IH x') as [-> ->]; auto. }
  apply Hok in Hx, Hx', Hy, Hy'. split; congruence.
Qed.

Variables (f : bstr -> list tidx) (samples : list bstr).
Hypothesis Hf : forall w, l_canonical ts (f w) w.

Lemma adj_split i j : In (i, j) (flat_map (fun w => l_adj (f w)) samples) ->
  exists a b w, l_canonical ts (a ++ LTok i :: LTok j :: b) w /\
  exists x y, nth_error (l_strings ts) i = Some x /\ nth_error (l_strings ts) j = Some y.
Proof.
  intros H. apply in_flat_map in H as (w & _ & H). apply adj_in in H as (a & b & E). pose proof (Hf w) as Hw. rewrite E in Hw.
  exists a, b, w. split; [exact Hw|]. destruct Hw as ((Hs & _) & _). apply l_seg_app_inv in Hs as (s & t & _ & _ & H2).
  inversion H2 as [|? ? x r Hx Hr]; subst. inversion Hr as [|? ? y r' Hy _]; subst. exists x, y. auto.
Qed.

(** What is offered is neither empty nor a token, and is written with bytes of the
    samples. *)
Lemma candidate_new x n : candidate ts f samples x n -> ~ In x (l_strings ts) /\ x <> [] /\ 0 < n.
Proof.
  intros H. destruct H as [b Hb|i j x y Hij Hx Hy].
  - split; [|split; [discriminate|]].
    + apply in_flat_map in Hb as (w & _ & Hb). eapply optimal_literals; [exact Hn|apply (Hf w)|exact Hb].
    + apply count_occ_In. exact Hb.
  - split; [|split].
    + destruct (adj_split i j Hij) as (a & b & w & Hc & _). eapply pair_new; [apply Hc|exact Hx|exact Hy].
    + intros E. apply app_eq_nil in E as (-> & _). apply Hn. eapply nth_error_In; exact Hx.
    + assert (G : In (i, j) (filter (fun ab => (fst ab =? i) && (snd ab =? j)) (flat_map (fun w => l_adj (f w)) samples))).
      { apply filter_In. split; [exact Hij|]. cbn. rewrite !Nat.eqb_refl. reflexivity. }
      destruct (filter _ _); [destruct G|cbn; lia].
Qed.

Lemma seg_bytes xs w : l_segments ts xs w -> forall x y, In x xs -> l_piece_string ts x = Some y -> forall c, In c y -> In c w.
Proof.
  induction 1 as [|z zs s r Hz _ IH]; intros x y Hx Hy c Hc; [destruct Hx|]. apply in_or_app.
  destruct Hx as [<-|Hx]; [left; congruence|right; eapply IH; eassumption].
Qed.

Lemma candidate_bytes x n c : candidate ts f samples x n -> In c x -> exists w, In w samples /\ In c w.
Proof.
  intros H Hc. destruct H as [b Hb|i j x y Hij Hx Hy].
  - apply in_flat_map in Hb as (w & Hw & Hb). exists w. split; [exact Hw|].
    eapply seg_bytes; [apply (proj1 (proj1 (Hf w)))|exact Hb|reflexivity|exact Hc].
  - apply in_flat_map in Hij as (w & Hw & Hij). apply adj_in in Hij as (a & b & E). exists w. split; [exact Hw|].
    apply in_app_or in Hc as [Hc|Hc].
    + eapply (seg_bytes (f w) w (proj1 (proj1 (Hf w))) (LTok i) x); [rewrite E; apply in_or_app; right; left; reflexivity|exact Hx|exact Hc].
    + eapply (seg_bytes (f w) w (proj1 (proj1 (Hf w))) (LTok j) y); [rewrite E; apply in_or_app; right; right; left; reflexivity|exact Hy|exact Hc].
Qed.

Lemma candidate_fun x n m : candidate ts f samples x n -> candidate ts f samples x m -> n = m.
Proof.
  intros H H'. destruct H as [b Hb|i j x y Hij Hx Hy]; inversion H' as [b' Hb' E1 E2|i' j' x' y' Hij' Hx' Hy' E1 E2]; subst.
  - reflexivity.
  - exfalso. assert (El : length (x' ++ y') = 1) by (rewrite E1; reflexivity). rewrite app_length in El.
    assert (x' <> [] /\ y' <> []) as (A & B) by (split; intros ->; apply Hn; eapply nth_error_In; eassumption).
    destruct x', y'; cbn in El; try congruence; lia.
  - exfalso. assert (El : length (x ++ y) = 1) by (rewrite <- E1; reflexivity). rewrite app_length in El.
    assert (x <> [] /\ y <> []) as (A & B) by (split; intros ->; apply Hn; eapply nth_error_In; eassumption).
    destruct x, y; cbn in El; try congruence; lia.
  - destruct (adj_split i j Hij) as (a & b & w & Hc & _). destruct (adj_split i' j' Hij') as (a' & b' & w' & Hc' & _).
    destruct (pair_unique _ _ _ _ _ _ _ _ _ _ _ _ _ _ Hc Hc' Hx Hy Hx' Hy' (eq_sym E1)) as [<- <-]. reflexivity.
Qed.

(** There is a candidate unless every sample is a token. *)
Lemma candidate_exists w : In w samples -> w <> [] -> ~ In w (l_strings ts) -> exists x n, candidate ts f samples x n.
Proof.
  intros Hw Hne Hnt. destruct (Hf w) as ((Hs & _) & _).
  destruct (existsb (fun x => match x with LLit _ => true | _ => false end) (f w)) eqn:Ex.
  - apply existsb_exists in Ex as (x & Hx & E). destruct x as [i|b|]; try discriminate.
    exists [b]. eexists. apply cand_literal. apply in_flat_map. eauto.
  - assert (Hall : forall x, In x (f w) -> exists i, x = LTok i).
    { intros x Hx. destruct (segments_pieces _ _ _ Hs x Hx) as [(i & -> & _)|(b & ->)]; [eauto|]. exfalso.
      assert (Ex' : existsb (fun x => match x with LLit _ => true | _ => false end) (f w) = true); [|congruence].
      apply existsb_exists. exists (LLit b). auto. }
    assert (Hl : 2 <= length (f w)).
    { destruct (f w) as [|x [|x' xs]] eqn:E; [inversion Hs; congruence| |cbn; lia]. exfalso.
      destruct (Hall x (or_introl eq_refl)) as (i & ->). apply l_seg_single in Hs. apply Hnt. eapply nth_error_In; exact Hs. }
    destruct (adj_exists _ Hall Hl) as (i & j & Hij).
    assert (Hin : In (i, j) (flat_map (fun w => l_adj (f w)) samples)) by (apply in_flat_map; eauto).
    destruct (adj_split i j Hin) as (_ & _ & _ & _ & x & y & Hx & Hy). exists (x ++ y). eexists. eapply cand_pair; eassumption.
Qed.
End Pairs.
