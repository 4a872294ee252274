(** * Sorting keeps the shape of a token set. *)
From Verif Require Import Base BaseLemmas TokenSetModel TokenizerModel TokSpec SortLemmas
  TokenSetProof TokenSetProof2 PropJson.

Lemma ext_sorted n l : n <= 256 -> StronglySorted (fun a b => tok_leb a b = true) (map Str l) ->
  StronglySorted (fun a b => tok_leb a b = true) (map (fun i => Ext (n2b i)) (seq 0 n) ++ map Str l).
Proof.
  intros Hn Hl.
  assert (G : forall k a, a + k <= 256 -> StronglySorted (fun a b => tok_leb a b = true)
     (map (fun i => Ext (n2b i)) (seq a k) ++ map Str l)).
  { induction k as [|k IH]; intros a Ha; cbn [seq map app]; [exact Hl|].
    constructor; [apply IH; lia|]. apply Forall_app. split.
    - apply Forall_map, Forall_forall. intros x Hx. apply in_seq in Hx. unfold tok_leb; cbn.
      rewrite nat_cmp_leb, !b2n_n2b_small by lia. apply Nat.leb_le. lia.
    - apply Forall_map, Forall_forall. intros x Hx. reflexivity. }
  apply G. lia.
Qed.

Lemma shaped_sort ts ss ts' : shaped ts ss -> ts_sort ts = Ret ts' ->
  exists ss', shaped ts' ss' /\ Permutation ss' ss.
Proof.
  intros S H. pose proof (ts_sort_sorted _ _ H) as V.
  set (ss' := stable_sort (fun a b => cmp_leb (bstr_cmp a b)) ss).
  exists ss'. assert (P : Permutation ss' ss) by apply sort_perm. split; [|exact P].
  pose proof (fits_lt _ _ (sh_fits _ _ S)) as Hn.
  split.
  - rewrite (sv_ext _ _ V).
    apply (sorted_unique tok_leb (tokens ts')).
    + intros x y _ _. apply cmp_antisym, token_cmp_good.
    + rewrite (sv_tokens _ _ V), (sh_tokens _ _ S). apply Permutation_app_head, Permutation_map.
      apply Permutation_sym; exact P.
    + apply (sv_tok_sorted _ _ V).
    + apply ext_sorted; [lia|].
      assert (E : map Str ss' = stable_sort tok_leb (map Str ss)).
      { symmetry. apply sort_map. reflexivity. }
      rewrite E. apply sort_sorted; [exact tok_leb_total|exact tok_leb_trans].
  - rewrite (sv_ext _ _ V), (sv_type _ _ V). apply (sh_fits _ _ S).
  - intros Hi. apply (sh_nonempty _ _ S). eapply Permutation_in; eauto.
  - eapply Permutation_NoDup; [apply Permutation_sym; exact P|apply (sh_nodup _ _ S)].
  - eapply sv_in_range; [apply (sh_range _ _ S)|exact V].
  - intros q Hq.
    assert (Hd : In (denotes ts' q) (map (denotes ts) (sequences ts))).
    { apply (Permutation_in _ (sv_denotes _ _ V)). apply in_map; exact Hq. }
    apply in_map_iff in Hd as (q0 & E & Hq0). injection E as _ E.
    apply (f_equal (@length _)) in E. rewrite !map_length in E. rewrite <- E.
    apply (sh_long _ _ S q0 Hq0).
Qed.

Lemma shaped_add ts ss s : shaped ts ss -> s <> [] -> ~ In s ss ->
  shaped (add_token_unchecked ts s) (ss ++ [s]).
Proof.
  intros S Hs Hi. split; cbn [add_token_unchecked tokens n_ext_tokens ts_type sequences].
  - rewrite (sh_tokens _ _ S), map_app, app_assoc. reflexivity.
  - apply (sh_fits _ _ S).
  - intros H. apply in_app_iff in H as [H|[H|[]]]; [apply (sh_nonempty _ _ S H)|congruence].
  - apply NoDup_app_iff. split; [apply (sh_nodup _ _ S)|]. split; [repeat constructor; auto|].
    intros x Hx [<-|[]]. auto.
  - apply seqs_in_range_add, (sh_range _ _ S).
  - intros q Hq. apply filter_In in Hq as (Hq & _). apply (sh_long _ _ S q Hq).
Qed.
