(** * Consequences of optimality: comparisons of token sets, cuts, bounds. *)
From Verif Require Import Base BaseLemmas TokenSetModel TokenizerModel TokSpec
  TokenizerProof1 TokenizerProof2 TokenSetProof.

Lemma optimal_exists ts text : usable ts -> exists ps, optimal ts ps text.
Proof.
  intros Hu. destruct (usable_tokenizer ts Hu) as (tk & Htk).
  apply tokenizer_new_ok in Htk.
  destruct (scan_all ts tk Htk Hu text) as (j & cs & _ & Hlen & _ & Hok).
  destruct (nth_error cs (length text)) as [c|] eqn:Ec; [|apply nth_error_None in Ec; lia].
  destruct (Hok _ _ Ec) as ((ps & Ho & _) & _). rewrite firstn_all in Ho. eauto.
Qed.

Lemma min_tokens_exists ts text : usable ts -> exists n, min_tokens ts text n.
Proof. intros Hu. destruct (optimal_exists ts text Hu) as (ps & H). exists (length (stream ts ps)), ps; auto. Qed.

Lemma min_tokens_unique ts text n m : min_tokens ts text n -> min_tokens ts text m -> n = m.
Proof.
  intros (ps & (H1 & H2) & ->) (qs & (H3 & H4) & ->).
  specialize (H2 _ H3). specialize (H4 _ H1). lia.
Qed.

Lemma min_tokens_le ts text n ps : min_tokens ts text n -> segments ts ps text -> n <= length (stream ts ps).
Proof. intros (qs & (_ & H) & ->) Hp. apply H; exact Hp. Qed.

(** [dict_le a b]: every string of [b] can be had in [a] at no greater cost. *)
Definition dict_le (a b : tokenset) : Prop :=
  forall p x, piece_string b p = Some x ->
  exists q, piece_string a q = Some x /\ length (piece_tokens a q) <= length (piece_tokens b p).

Lemma dict_le_segments a b ps text : dict_le a b -> segments b ps text ->
  exists qs, segments a qs text /\ length (stream a qs) <= length (stream b ps).
Proof.
  intros Hd. induction 1 as [|p ps s r Hp _ IH].
  - exists []; split; [constructor|cbn; lia].
  - destruct IH as (qs & Hq & Hl). destruct (Hd _ _ Hp) as (q & Hqs & Hql).
    exists (q :: qs). split; [constructor; auto|]. cbn. rewrite !app_length.
    unfold stream in Hl. lia.
Qed.

Lemma dict_le_min a b text n m :
  dict_le a b -> min_tokens a text n -> min_tokens b text m -> n <= m.
Proof.
  intros Hd Hn (ps & (Hs & _) & ->). destruct (dict_le_segments _ _ _ _ Hd Hs) as (qs & Hq & Hl).
  pose proof (min_tokens_le _ _ _ _ Hn Hq). lia.
Qed.

(** Two token sets offering the same strings at the same costs. *)
Definition same_dict (a b : tokenset) : Prop :=
  forall x c,
    (exists p, piece_string a p = Some x /\ length (piece_tokens a p) = c) <->
    (exists p, piece_string b p = Some x /\ length (piece_tokens b p) = c).

Lemma same_dict_le a b : same_dict a b -> dict_le a b.
Proof.
  intros H p x Hp. destruct (proj2 (H x (length (piece_tokens b p)))) as (q & Hq & Hl); [eauto|].
  exists q; split; [exact Hq|lia].
Qed.

Lemma same_dict_sym a b : same_dict a b -> same_dict b a.
Proof. intros H x c; symmetry; apply H. Qed.

Lemma same_dict_min a b text n m :
  same_dict a b -> min_tokens a text n -> min_tokens b text m -> n = m.
Proof.
  intros H Hn Hm. apply Nat.le_antisymm.
  - exact (dict_le_min a b text n m (same_dict_le _ _ H) Hn Hm).
  - exact (dict_le_min b a text m n (same_dict_le _ _ (same_dict_sym _ _ H)) Hm Hn).
Qed.

(** ** Adding a token *)
Definition seqs_nonempty (ts : tokenset) : Prop :=
  forall q, In q (sequences ts) -> seq_tokens q <> [].

Lemma seqs_nonempty_add ts s : seqs_nonempty ts -> seqs_nonempty (add_token_unchecked ts s).
Proof. intros H q Hq. cbn in Hq. apply filter_In in Hq as (Hq & _). exact (H q Hq). Qed.

Lemma seqs_nonempty_bits_set n t p sp enc :
  (forall c, enc c <> []) -> seqs_nonempty (bits_set n t p sp enc).
Proof.
  intros H q Hq.
  apply (in_map_iff (fun c => mkSeq [n2b c] (enc c)) (seq 0 256)) in Hq as (c & <- & _). apply H.
Qed.

Lemma add_token_dict_le ts s : seqs_nonempty ts -> dict_le (add_token_unchecked ts s) ts.
Proof.
  intros Hne [i|i] x Hp; cbn in Hp.
  - exists (PTok i). split; [|cbn; lia]. cbn.
    destruct (nth_error (tokens ts) i) as [t|] eqn:E; [|discriminate].
    rewrite nth_error_app1 by (apply nth_error_Some; congruence). rewrite E; exact Hp.
  - destruct (nth_error (sequences ts) i) as [q|] eqn:E; [|discriminate].
    injection Hp as <-. pose proof (nth_error_In _ _ E) as Hq.
    destruct (bstr_eqb_spec (seq_string q) s) as [Eq|Hn].
    + exists (PTok (length (tokens ts))). cbn. rewrite nth_error_app2, Nat.sub_diag by lia. cbn.
      split; [congruence|]. rewrite E. specialize (Hne q Hq). destruct (seq_tokens q); [congruence|cbn; lia].
    + assert (Hf : In q (filter (fun q => negb (bstr_eqb (seq_string q) s)) (sequences ts))).
      { apply filter_In; split; [exact Hq|]. apply negb_true_iff, bstr_eqb_neq; exact Hn. }
      apply In_nth_error in Hf as (j & Hj). exists (PSeq j). cbn. rewrite Hj, E. auto.
Qed.

(** ** Bounds *)
Lemma segments_bytes ts (bc : byte -> nat) :
  (forall b, exists p, piece_string ts p = Some [b] /\ length (piece_tokens ts p) = bc b) ->
  forall text, exists ps, segments ts ps text /\ length (stream ts ps) = sum (map bc text).
Proof.
  intros H. induction text as [|b text (ps & Hs & Hl)].
  - exists []; split; [constructor|reflexivity].
  - destruct (H b) as (p & Hp & Hc). exists (p :: ps). split.
    + apply (seg_cons ts p ps [b] text); assumption.
    + cbn. rewrite app_length. unfold stream, sum in Hl. unfold sum. lia.
Qed.

Lemma piece_tokens_pos ts p x : seqs_nonempty ts -> piece_string ts p = Some x ->
  1 <= length (piece_tokens ts p).
Proof.
  intros Hne. destruct p as [i|i]; cbn; [lia|].
  destruct (nth_error (sequences ts) i) as [q|] eqn:E; [|discriminate].
  intros _. specialize (Hne q (nth_error_In _ _ E)). destruct (seq_tokens q); [congruence|cbn; lia].
Qed.

Lemma segments_length ts L ps text :
  seqs_nonempty ts -> (forall x, In x (strings ts) -> length x <= L) ->
  segments ts ps text -> length text <= L * length (stream ts ps).
Proof.
  intros Hne HL. induction 1 as [|p ps s r Hp _ IH]; [cbn; lia|].
  cbn. rewrite !app_length. pose proof (piece_tokens_pos ts p s Hne Hp).
  assert (length s <= L) by (apply HL, in_strings; eauto).
  unfold stream in IH. nia.
Qed.

(** ** Cuts *)
Definition no_crossing (ts : tokenset) (a b : bstr) : Prop :=
  forall x y, x <> [] -> y <> [] -> In (x ++ y) (strings ts) ->
    (exists a', a = a' ++ x) -> (exists b', b = y ++ b') -> False.

Lemma segments_cut ts a b ps : no_crossing ts a b -> segments ts ps (a ++ b) ->
  exists ps1 ps2, ps = ps1 ++ ps2 /\ segments ts ps1 a /\ segments ts ps2 b.
Proof.
  intros Hno H. remember (a ++ b) as w eqn:Ew. revert a Hno Ew.
  induction H as [|p ps s r Hp Hps IH]; intros a Hno Ew.
  - symmetry in Ew. apply app_eq_nil in Ew as [-> ->]. exists [], []. repeat split; constructor.
  - destruct a as [|c0 a0].
    { exists [], (p :: ps). cbn in Ew. rewrite <- Ew. repeat split; [constructor|constructor; auto]. }
    set (a := c0 :: a0) in *.
    destruct (Nat.le_gt_cases (length s) (length a)) as [Hle|Hgt].
    + assert (Ha : exists a', a = s ++ a' /\ r = a' ++ b).
      { apply (f_equal (firstn (length s))) in Ew as E1.
        rewrite firstn_app, firstn_all, Nat.sub_diag, app_nil_r in E1.
        rewrite firstn_app in E1. replace (length s - length a) with 0 in E1 by lia.
        rewrite firstn_O, app_nil_r in E1. exists (skipn (length s) a).
        assert (Ea : a = s ++ skipn (length s) a) by (rewrite E1 at 1; rewrite firstn_skipn; reflexivity).
        split; [exact Ea|]. rewrite Ea, <- app_assoc in Ew. apply app_inv_head in Ew. exact Ew. }
      destruct Ha as (a' & Ea & Er).
      destruct (IH a') as (p1 & p2 & -> & H1 & H2); [|exact Er|].
      { intros x y Hx Hy Hin (a'' & ->) Hb. apply (Hno x y Hx Hy Hin); [|exact Hb].
        exists (s ++ a''). rewrite Ea, app_assoc. reflexivity. }
      exists (p :: p1), p2. split; [reflexivity|]. split; [|exact H2].
      rewrite Ea. constructor; assumption.
    + exfalso. apply (f_equal (firstn (length s))) in Ew as E1.
      rewrite firstn_app, firstn_all, Nat.sub_diag, app_nil_r in E1.
      rewrite firstn_app, firstn_all2 in E1 by lia.
      apply (Hno a (firstn (length s - length a) b)).
      * discriminate.
      * intros E. rewrite E, app_nil_r in E1. rewrite E1 in Hgt. lia.
      * rewrite <- E1. apply in_strings; eauto.
      * exists []; reflexivity.
      * exists (skipn (length s - length a) b). rewrite firstn_skipn; reflexivity.
Qed.

Lemma cut_le ts a b n na nb :
  min_tokens ts (a ++ b) n -> min_tokens ts a na -> min_tokens ts b nb -> n <= na + nb.
Proof.
  intros Hn (ps & (H1 & _) & ->) (qs & (H2 & _) & ->).
  pose proof (min_tokens_le _ _ _ _ Hn (segments_app _ _ _ _ _ H1 H2)) as H.
  rewrite stream_app, app_length in H. exact H.
Qed.

Lemma cut_eq ts a b n na nb : no_crossing ts a b ->
  min_tokens ts (a ++ b) n -> min_tokens ts a na -> min_tokens ts b nb -> n = na + nb.
Proof.
  intros Hno Hn Ha Hb. apply Nat.le_antisymm; [eapply cut_le; eauto|].
  destruct Hn as (ps & (Hs & _) & ->).
  destruct (segments_cut _ _ _ _ Hno Hs) as (p1 & p2 & -> & H1 & H2).
  pose proof (min_tokens_le _ _ _ _ Ha H1). pose proof (min_tokens_le _ _ _ _ Hb H2).
  rewrite stream_app, app_length. lia.
Qed.

(** Costs of a list of parts. *)
Lemma cut_parts ts parts ns n :
  usable ts -> Forall2 (min_tokens ts) parts ns -> min_tokens ts (concat parts) n ->
  n <= sum ns /\
  ((forall l1 l2, parts = l1 ++ l2 -> no_crossing ts (concat l1) (concat l2)) -> n = sum ns).
Proof.
  intros Hu H. revert n. induction H as [|p m parts ns Hp H IH]; intros n Hn; cbn in *.
  - assert (n = 0) as ->.
    { pose proof (min_tokens_le _ _ _ [] Hn (seg_nil _)) as Hl. cbn in Hl. lia. }
    auto.
  - destruct (min_tokens_exists ts (concat parts) Hu) as (k & Hk).
    destruct (IH _ Hk) as (H1 & H2). fold (sum ns). split.
    + pose proof (cut_le _ _ _ _ _ _ Hn Hp Hk). lia.
    + intros Hno. rewrite <- H2.
      * eapply cut_eq; eauto. specialize (Hno [p] parts eq_refl). cbn in Hno.
        rewrite app_nil_r in Hno. exact Hno.
      * intros l1 l2 ->. intros x y Hx Hy Hin (a' & Ha) Hb.
        apply (Hno (p :: l1) l2 eq_refl x y Hx Hy Hin); [|exact Hb].
        exists (p ++ a'). cbn. rewrite Ha, app_assoc. reflexivity.
Qed.

(** ** Sums of counters *)
Lemma sum_nth l : sum l = sum (map (fun t => nth t l 0) (seq 0 (length l))).
Proof.
  induction l as [|x l IH]; [reflexivity|]. cbn. rewrite <- seq_shift, map_map. cbn.
  unfold sum in IH. rewrite IH. reflexivity.
Qed.

Lemma sum_map_add (f g : nat -> nat) l :
  sum (map (fun t => f t + g t) l) = sum (map f l) + sum (map g l).
Proof. induction l as [|x l IH]; cbn; [reflexivity|]. unfold sum in IH. lia. Qed.

Lemma sum_one t a n : sum (map (fun x => if x =? t then 1 else 0) (seq a n))
  = if (a <=? t) && (t <? a + n) then 1 else 0.
Proof.
  revert a; induction n as [|n IH]; intros a; cbn [seq map sum fold_right].
  - destruct (Nat.leb_spec a t), (Nat.ltb_spec t (a + 0)); cbn; auto; lia.
  - unfold sum in IH. rewrite IH.
    destruct (Nat.eqb_spec a t), (Nat.leb_spec (S a) t), (Nat.ltb_spec t (S a + n)),
      (Nat.leb_spec a t), (Nat.ltb_spec t (a + S n)); cbn; lia.
Qed.

Lemma sum_count_occ xs n : (forall t, In t xs -> t < n) ->
  sum (map (count_occ Nat.eq_dec xs) (seq 0 n)) = length xs.
Proof.
  induction xs as [|x xs IH]; intros H.
  - cbn. induction (seq 0 n); cbn; auto.
  - rewrite (map_ext _ (fun t => (if t =? x then 1 else 0) + count_occ Nat.eq_dec xs t)).
    + rewrite sum_map_add, IH by (intros; apply H; right; assumption).
      rewrite sum_one. rewrite (proj2 (Nat.leb_le 0 x)), (proj2 (Nat.ltb_lt x (0 + n))); cbn; auto; try lia.
      apply H; left; reflexivity.
    + intros t. destruct (Nat.eqb_spec t x) as [->|Hne].
      * rewrite count_occ_cons_eq by reflexivity. lia.
      * rewrite count_occ_cons_neq by congruence. lia.
Qed.

Lemma stream_range ts ps text : seqs_in_range ts -> segments ts ps text ->
  forall t, In t (stream ts ps) -> t < ntokens ts.
Proof.
  intros Hr. induction 1 as [|p ps s r Hp _ IH]; cbn; [tauto|].
  intros t Ht. apply in_app_iff in Ht as [Ht|Ht]; [|apply IH; exact Ht].
  destruct p as [i|i]; cbn in Hp, Ht.
  - destruct Ht as [<-|[]]. unfold ntokens. apply nth_error_Some.
    destruct (nth_error (tokens ts) i); congruence.
  - destruct (nth_error (sequences ts) i) as [q|] eqn:E; [|discriminate].
    eapply Hr; [eapply nth_error_In; exact E|exact Ht].
Qed.

Lemma counted_sum ts ps text s s' :
  seqs_in_range ts -> segments ts ps text -> matches ts s -> counted ts ps text s s' ->
  sum (token_counts s') = sum (token_counts s) + length (stream ts ps).
Proof.
  intros Hr Hs (_ & Hl & _) Hc. destruct (counted_matches _ _ _ _ _ Hc) as (_ & Hl' & _).
  rewrite (sum_nth (token_counts s')), (sum_nth (token_counts s)), Hl, Hl'.
  rewrite (map_ext _ (fun t => nth t (token_counts s) 0 + count_occ Nat.eq_dec (stream ts ps) t))
    by (apply (counted_tokens _ _ _ _ _ Hc)).
  rewrite sum_map_add, sum_count_occ; [reflexivity|].
  eapply stream_range; eauto.
Qed.
