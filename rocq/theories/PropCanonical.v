(** * Property C100: which of the shortest segmentations is counted.

    Several segmentations of a text can have the least number of tokens.  The
    tokenizer counts exactly one of them, and which one is determined by the
    strings of the token set alone: read from the end of the text, every piece
    is as long as possible.  The order in which tokens and sequences are listed
    plays no role for any of the counters. *)
From Verif Require Import Base BaseLemmas TokenSetModel TokenizerModel TokSpec SortLemmas TokenizerProof1 TokenizerProof2
  TokenizerTheory TokenSetProof TokenSetProof2 PropTokenizer PropTokenSet PropJson Shaped CacheModel PropCache OptBytesModel OptBytesProof OptBytesProof2 OptBytesProof3 OptBytesProof4
  OptimizeModel OptimizeProof1 OptimizeProof2 OptimizeProof3 OptimizeProof4 OptimizeProof5 OptimizeProof6 OptimizeProof7 OptimizeProof8 PropOptimize.

(** ** One segmentation *)
Lemma longest_last_prefix ts l r : longest_last ts (l ++ r) -> longest_last ts l.
Proof.
  intros H l0 p r0 u -> Hu. apply (H l0 p (r0 ++ r) u); [|exact Hu].
  rewrite <- app_assoc. reflexivity.
Qed.

Lemma optimal_prefix ts ps qs s t : optimal ts (ps ++ qs) (s ++ t) -> segments ts ps s -> segments ts qs t -> optimal ts ps s.
Proof.
  intros (_ & Hmin) Hs Ht. split; [exact Hs|]. intros rs Hrs.
  specialize (Hmin (rs ++ qs) (segments_app _ _ _ _ _ Hrs Ht)). rewrite !stream_app, !app_length in Hmin. lia.
Qed.

Lemma canonical_unique ts : usable ts -> forall ps qs u,
  optimal ts ps u -> longest_last ts ps -> optimal ts qs u -> longest_last ts qs -> ps = qs.
Proof.
  intros Hu ps. induction ps as [|p ps IH] using rev_ind; intros qs u Hp Lp Hq Lq.
  - destruct qs as [|q qs]; [reflexivity|]. exfalso.
    pose proof (proj1 Hp) as Hs. inversion Hs; subst. pose proof (proj1 Hq) as Hs'.
    inversion Hs' as [|? ? x r Hx _ E1 E2]; subst. apply app_eq_nil in E2 as (-> & _).
    apply (proj1 (proj2 Hu)), in_strings. eauto.
  - destruct qs as [|q qs _] using rev_ind.
    + exfalso. pose proof (proj1 Hq) as Hs. inversion Hs; subst. pose proof (proj1 Hp) as Hs'.
      apply segments_app_inv in Hs' as (a & b & E & _ & Hb). symmetry in E. apply app_eq_nil in E as (_ & ->).
      apply segments_single in Hb. apply (proj1 (proj2 Hu)), in_strings. eauto.
    + pose proof (proj1 Hp) as Sp. pose proof (proj1 Hq) as Sq.
      apply segments_app_inv in Sp as (a & x & E1 & Ha & Hx). apply segments_single in Hx.
      apply segments_app_inv in Sq as (b & y & E2 & Hb & Hy). apply segments_single in Hy.
      assert (L1 : length y <= length x) by (apply (Lp ps p [] u eq_refl (proj1 Hp) qs q x y Hq Hx Hy)).
      assert (L2 : length x <= length y) by (apply (Lq qs q [] u eq_refl (proj1 Hq) ps p y x Hp Hy Hx)).
      assert (x = y) as ->.
      { apply (suffix_eq x y u); [exists a; exact E1|exists b; exact E2|lia]. }
      rewrite E2 in E1. apply app_inv_tail in E1. subst b.
      pose proof (piece_unique ts p q y Hu Hx Hy) as ->. f_equal.
      subst u. apply (IH qs a).
      * eapply optimal_prefix; [exact Hp|exact Ha|]. rewrite <- (app_nil_r y). constructor; [exact Hx|constructor].
      * eapply longest_last_prefix; exact Lp.
      * eapply optimal_prefix; [exact Hq|exact Hb|]. rewrite <- (app_nil_r y). constructor; [exact Hx|constructor].
      * eapply longest_last_prefix; exact Lq.
Qed.

(** The counters are those of the only optimal segmentation in which, read
    from the end, every piece is as long as possible. *)
Theorem C100_segmentation_counted : forall ts tk text s buffer s' buffer',
  tokenizer_new ts = Ret tk -> seqs_in_range ts -> matches ts s ->
  process_slice tk text s buffer = Ret (s', buffer') ->
  exists ps, optimal ts ps text /\ longest_last ts ps /\ counted ts ps text s s' /\
    forall qs, optimal ts qs text -> longest_last ts qs -> qs = ps.
Proof.
  intros ts tk text s buffer s' buffer' H Hr Hm E. pose proof (tokenizer_new_ok ts tk H) as Hok.
  pose proof (tk_ok_usable _ _ Hok) as Hu.
  destruct (process_slice_canonical ts tk Hok Hu Hr text) as (ps & cs & Ho & Hl & Hc).
  destruct (Hc s buffer Hm) as (s1 & E1 & Hs1). rewrite E in E1. injection E1 as <- <-.
  exists ps. split; [exact Ho|]. split; [exact Hl|]. split; [exact Hs1|].
  intros qs Hq Lq. exact (canonical_unique ts Hu qs ps text Hq Lq Ho Hl).
Qed.

(** ** The order of the tokens and sequences *)

(** Piece [p] of [a] is piece [q] of [b]: the same kind, the same string, and
    it stands for the same tokens. *)
Definition same_piece (a b : tokenset) (p q : piece) : Prop :=
  (match p, q with PTok _, PTok _ | PSeq _, PSeq _ => True | _, _ => False end) /\
  piece_string a p = piece_string b q /\
  map (nth_error (tokens a)) (piece_tokens a p) = map (nth_error (tokens b)) (piece_tokens b q).

Lemma same_piece_sym a b p q : same_piece a b p q -> same_piece b a q p.
Proof. intros (H1 & H2 & H3). destruct p, q; try contradiction; repeat split; auto. Qed.

Lemma same_content_sym a b : same_content a b -> same_content b a.
Proof.
  intros (H1 & H2 & H3 & H4 & H5 & H6). repeat split; auto; apply Permutation_sym; assumption.
Qed.

Lemma same_content_piece a b p x : same_content a b -> piece_string a p = Some x -> exists q, same_piece a b p q.
Proof.
  intros (_ & _ & _ & _ & Ht & Hs) Hp. destruct p as [i|i].
  - cbn in Hp. destruct (nth_error (tokens a) i) as [t|] eqn:Ei; [|discriminate].
    pose proof (Permutation_in _ Ht (nth_error_In _ _ Ei)) as Hb. apply In_nth_error in Hb as (j & Ej).
    exists (PTok j). repeat split; cbn; rewrite Ei, Ej; reflexivity.
  - cbn in Hp. destruct (nth_error (sequences a) i) as [q|] eqn:Ei; [|discriminate]. apply nth_error_In in Ei as Hq.
    apply (in_map (fun q => (seq_string q, map (nth_error (tokens a)) (seq_tokens q)))) in Hq.
    apply (Permutation_in _ Hs) in Hq. apply in_map_iff in Hq as (r & Er & Hin). injection Er as E1 E2.
    apply In_nth_error in Hin as (j & Ej). exists (PSeq j). repeat split; cbn; rewrite Ei, Ej; cbn; congruence.
Qed.

Section Same.
Variables a b : tokenset.
Hypothesis C : same_content a b.

Lemma same_pieces ps u : segments a ps u -> exists qs, Forall2 (same_piece a b) ps qs.
Proof.
  induction 1 as [|p ps s r Hp _ (qs & IH)]; [exists []; constructor|].
  destruct (same_content_piece a b p s C Hp) as (q & Hq). exists (q :: qs). constructor; assumption.
Qed.

Lemma same_segments ps qs : Forall2 (same_piece a b) ps qs -> forall u, segments a ps u -> segments b qs u.
Proof.
  induction 1 as [|p q ps qs (_ & Hpq & _) _ IH]; intros u Hu; inversion Hu; subst; constructor; [congruence|auto].
Qed.

Lemma same_stream ps qs : Forall2 (same_piece a b) ps qs ->
  map (nth_error (tokens a)) (stream a ps) = map (nth_error (tokens b)) (stream b qs).
Proof.
  induction 1 as [|p q ps qs (_ & _ & Hpq) _ IH]; [reflexivity|].
  unfold stream in *. cbn [flat_map]. rewrite !map_app, Hpq, IH. reflexivity.
Qed.

Lemma same_length ps qs : Forall2 (same_piece a b) ps qs -> length (stream a ps) = length (stream b qs).
Proof. intros H. apply same_stream in H. apply (f_equal (@length _)) in H. rewrite !map_length in H. exact H. Qed.
End Same.

Lemma Forall2_sym {A B} (P : A -> B -> Prop) (Q : B -> A -> Prop) l m :
  (forall x y, P x y -> Q y x) -> Forall2 P l m -> Forall2 Q m l.
Proof. intros H. induction 1; constructor; auto. Qed.

Lemma same_optimal a b ps qs u : same_content a b -> Forall2 (same_piece a b) ps qs -> optimal a ps u -> optimal b qs u.
Proof.
  intros C F (Hs & Hmin). split; [eapply same_segments; eassumption|]. intros rs Hrs.
  destruct (same_pieces b a (same_content_sym _ _ C) rs u Hrs) as (rs' & F').
  specialize (Hmin rs' (same_segments b a rs rs' F' u Hrs)).
  rewrite <- (same_length a b ps qs F), (same_length b a rs rs' F'). exact Hmin.
Qed.

Lemma Forall2_app_inv_mid {A B} (P : A -> B -> Prop) ps l q r : Forall2 P ps (l ++ q :: r) ->
  exists l' p r', ps = l' ++ p :: r' /\ Forall2 P l' l /\ P p q.
Proof.
  intros H. apply Forall2_app_inv_r in H as (l' & m & H1 & H2 & ->). inversion H2; subst. eauto 7.
Qed.

Lemma same_longest a b ps qs : same_content a b -> Forall2 (same_piece a b) ps qs -> longest_last a ps -> longest_last b qs.
Proof.
  intros C F L l q r u -> Hu ls q' y z Ho Hy Hz.
  apply Forall2_app_inv_mid in F as (l' & p & r' & -> & Fl & Fq).
  assert (Fx : Forall2 (same_piece b a) (l ++ [q]) (l' ++ [p])).
  { eapply Forall2_sym; [apply same_piece_sym|]. apply Forall2_app; [exact Fl|]. constructor; [exact Fq|constructor]. }
  pose proof (same_segments b a _ _ Fx u Hu) as Hu'.
  destruct (same_pieces b a (same_content_sym _ _ C) _ u (proj1 Ho)) as (xs & Fo).
  pose proof (same_optimal b a _ _ u (same_content_sym _ _ C) Fo Ho) as Ho'.
  apply Forall2_app_inv_l in Fo as (ls' & m & F1 & F2 & ->). inversion F2 as [|? p' ? ? (_ & Hp' & _) F3]; subst. inversion F3; subst.
  destruct Fq as (_ & Hpq & _).
  apply (L l' p r' u eq_refl Hu' ls' p' y z Ho'); congruence.
Qed.

(** ** Counters *)
Lemma count_map {A B} (da : forall x y : A, {x = y} + {x <> y}) (db : forall x y : B, {x = y} + {x <> y}) (f : A -> B) l t :
  (forall x, f x = f t -> x = t) -> count_occ da l t = count_occ db (map f l) (f t).
Proof.
  intros Hi. induction l as [|x l IH]; [reflexivity|]. cbn.
  destruct (da x t) as [Ex|Hn]; destruct (db (f x) (f t)) as [E|E]; try congruence; exfalso; auto.
Qed.

Definition tokdec : forall x y : option token, {x = y} + {x <> y}.
Proof.
  assert (D : forall x y : token, {x = y} + {x <> y})
    by (decide equality; [apply (list_eq_dec Byte.byte_eq_dec)|apply Byte.byte_eq_dec]).
  decide equality.
Qed.

Lemma nth_tok_inj ts i x : NoDup (tokens ts) -> i < ntokens ts -> nth_error (tokens ts) x = nth_error (tokens ts) i -> x = i.
Proof. intros Hn Hi E. symmetry. apply (proj1 (NoDup_nth_error _) Hn); [exact Hi|symmetry; exact E]. Qed.

Section Count.
Variables a b : tokenset.
Hypothesis C : same_content a b.
Hypothesis Na : NoDup (tokens a).
Hypothesis Ua : usable a.

Let Nb : NoDup (tokens b).
Proof. destruct C as (_ & _ & _ & _ & H & _). eapply Permutation_NoDup; eassumption. Qed.

Lemma same_token_count ps qs i j : Forall2 (same_piece a b) ps qs -> i < ntokens a ->
  nth_error (tokens a) i = nth_error (tokens b) j ->
  count_occ Nat.eq_dec (stream a ps) i = count_occ Nat.eq_dec (stream b qs) j.
Proof.
  intros F Hi E.
  assert (Hj : j < ntokens b) by (apply nth_error_Some; rewrite <- E; apply nth_error_Some; exact Hi).
  rewrite (count_map _ tokdec (nth_error (tokens a))) by (intros x; apply nth_tok_inj; assumption).
  rewrite (count_map _ tokdec (nth_error (tokens b)) (stream b qs)) by (intros x; apply nth_tok_inj; assumption).
  rewrite (same_stream a b ps qs F), E. reflexivity.
Qed.

Lemma same_tok i j p q : same_piece a b p q -> i < ntokens a -> nth_error (tokens a) i = nth_error (tokens b) j ->
  (p = PTok i <-> q = PTok j).
Proof.
  intros (H1 & _ & H2) Hi E.
  assert (Hj : j < ntokens b) by (apply nth_error_Some; rewrite <- E; apply nth_error_Some; exact Hi).
  destruct p as [x|x], q as [y|y]; try contradiction; [|split; discriminate]. cbn in H2. injection H2 as H2.
  split; intros Ex; injection Ex as ->; f_equal.
  - apply (nth_tok_inj b); [exact Nb|exact Hj|congruence].
  - apply (nth_tok_inj a); [exact Na|exact Hi|congruence].
Qed.

Lemma same_adj ps qs : Forall2 (same_piece a b) ps qs -> forall i j i' j', i < ntokens a -> j < ntokens a ->
  nth_error (tokens a) i = nth_error (tokens b) i' -> nth_error (tokens a) j = nth_error (tokens b) j' ->
  adj i j ps = adj i' j' qs.
Proof.
  intros F i j i' j' Hi Hj Ei Ej. induction F as [|p q ps qs Hpq F IH]; [reflexivity|]. cbn [adj]. rewrite IH. f_equal.
  destruct F as [|p2 q2 ps qs Hpq2 F]; [destruct p, q; reflexivity|].
  pose proof (same_tok i i' p q Hpq Hi Ei) as T1. pose proof (same_tok j j' p2 q2 Hpq2 Hj Ej) as T2.
  destruct Hpq as (K1 & _). destruct Hpq2 as (K2 & _).
  destruct p as [x|x], q as [y|y]; try contradiction; [|reflexivity].
  destruct p2 as [x2|x2], q2 as [y2|y2]; try contradiction; [|reflexivity].
  replace (x =? i) with (y =? i'); [replace (x2 =? j) with (y2 =? j'); [reflexivity|]|].
  - apply eq_true_iff_eq. rewrite !Nat.eqb_eq. split; intros E; [apply proj2 in T2|apply proj1 in T2]; rewrite E in T2; specialize (T2 eq_refl); congruence.
  - apply eq_true_iff_eq. rewrite !Nat.eqb_eq. split; intros E; [apply proj2 in T1|apply proj1 in T1]; rewrite E in T1; specialize (T1 eq_refl); congruence.
Qed.

Lemma same_seq_count ps qs u i j x : Forall2 (same_piece a b) ps qs -> usable b -> segments a ps u ->
  piece_string a (PSeq i) = Some x -> piece_string b (PSeq j) = Some x ->
  count_occ piece_eq_dec ps (PSeq i) = count_occ piece_eq_dec qs (PSeq j).
Proof.
  intros F Ub Hs Hi Hj. revert u Hs. induction F as [|p q ps qs (_ & Hpq & _) F IH]; intros u Hs; [reflexivity|].
  inversion Hs as [|? ? s r Hp Hr]; subst. cbn. rewrite (IH r Hr).
  destruct (piece_eq_dec p (PSeq i)) as [->|Hn]; destruct (piece_eq_dec q (PSeq j)) as [->|Hm]; try reflexivity; exfalso.
  - apply Hm. apply (piece_unique b _ _ x Ub); congruence.
  - apply Hn. apply (piece_unique a _ _ x Ua); congruence.
Qed.
End Count.

(** Two token sets with the same content, tokens and sequences listed in any
    order, count the same: the total, every token, every sequence and every
    pair of neighbouring tokens. *)
Theorem C100_order_does_not_matter : forall a b ta tb text sa ba sa' ba' sb bb sb' bb',
  same_content a b -> NoDup (tokens a) ->
  tokenizer_new a = Ret ta -> tokenizer_new b = Ret tb -> seqs_in_range a -> seqs_in_range b ->
  matches a sa -> matches b sb ->
  process_slice ta text sa ba = Ret (sa', ba') -> process_slice tb text sb bb = Ret (sb', bb') ->
  (exists n, total_tokens sa' = total_tokens sa + n /\ total_tokens sb' = total_tokens sb + n) /\
  (forall i j t, nth_error (tokens a) i = Some t -> nth_error (tokens b) j = Some t ->
     exists n, nth i (token_counts sa') 0 = nth i (token_counts sa) 0 + n /\
               nth j (token_counts sb') 0 = nth j (token_counts sb) 0 + n) /\
  (forall i j x, option_map seq_string (nth_error (sequences a) i) = Some x ->
                 option_map seq_string (nth_error (sequences b) j) = Some x ->
     exists n, nth i (seq_counts sa') 0 = nth i (seq_counts sa) 0 + n /\
               nth j (seq_counts sb') 0 = nth j (seq_counts sb) 0 + n) /\
  (forall i j i' j' t u, nth_error (tokens a) i = Some t -> nth_error (tokens a) j = Some u ->
     nth_error (tokens b) i' = Some t -> nth_error (tokens b) j' = Some u ->
     exists n, nth (i * ntokens a + j) (pair_counts sa') 0 = nth (i * ntokens a + j) (pair_counts sa) 0 + n /\
               nth (i' * ntokens b + j') (pair_counts sb') 0 = nth (i' * ntokens b + j') (pair_counts sb) 0 + n).
Proof.
  intros a b ta tb text sa ba sa' ba' sb bb sb' bb' C Na Ha Hb Ra Rb Ma Mb Ea Eb.
  destruct (C100_segmentation_counted a ta text sa ba sa' ba' Ha Ra Ma Ea) as (ps & Op & Lp & Cp & _).
  destruct (C100_segmentation_counted b tb text sb bb sb' bb' Hb Rb Mb Eb) as (qs & Oq & Lq & Cq & Uq).
  pose proof (tk_ok_usable _ _ (tokenizer_new_ok _ _ Ha)) as Ua. pose proof (tk_ok_usable _ _ (tokenizer_new_ok _ _ Hb)) as Ub.
  destruct (same_pieces a b C ps text (proj1 Op)) as (qs' & F).
  assert (qs' = qs) as -> by (apply Uq; [eapply same_optimal|eapply same_longest]; eassumption).
  split; [|split; [|split]].
  - exists (length (stream a ps)). split; [apply (counted_total _ _ _ _ _ Cp)|].
    rewrite (counted_total _ _ _ _ _ Cq), (same_length a b ps qs F). reflexivity.
  - intros i j t Hi Hj. exists (count_occ Nat.eq_dec (stream a ps) i). split; [apply (counted_tokens _ _ _ _ _ Cp)|].
    rewrite (counted_tokens _ _ _ _ _ Cq). f_equal. symmetry. apply (same_token_count a b); auto; [apply nth_error_Some; congruence|congruence].
  - intros i j x Hi Hj. exists (count_occ piece_eq_dec ps (PSeq i)). split; [apply (counted_seqs _ _ _ _ _ Cp)|].
    rewrite (counted_seqs _ _ _ _ _ Cq). f_equal. symmetry. eapply (same_seq_count a b); eauto. apply Op.
  - intros i j i' j' t u Hi Hj Hi' Hj'. exists (adj i j ps).
    split; [apply (counted_pairs _ _ _ _ _ Cp); apply nth_error_Some; congruence|].
    rewrite (counted_pairs _ _ _ _ _ Cq) by (apply nth_error_Some; congruence). f_equal. symmetry.
    apply (same_adj a b); auto; try congruence; apply nth_error_Some; congruence.
Qed.

(** In particular sorting a token set changes no count. *)
Theorem C100_sorting_keeps_counts : forall ts ts' tk tk' text s b s' b' r c r' c' i j t,
  ts_sort ts = Ret ts' -> NoDup (tokens ts) -> tokenizer_new ts = Ret tk -> tokenizer_new ts' = Ret tk' ->
  matches ts s -> matches ts' r ->
  process_slice tk text s b = Ret (s', b') -> process_slice tk' text r c = Ret (r', c') ->
  nth_error (tokens ts) i = Some t -> nth_error (tokens ts') j = Some t ->
  exists n, nth i (token_counts s') 0 = nth i (token_counts s) 0 + n /\
            nth j (token_counts r') 0 = nth j (token_counts r) 0 + n.
Proof.
  intros ts ts' tk tk' text s b s' b' r c r' c' i j t E Hn Ht Ht' Ms Mr Es Er Hi Hj.
  pose proof (proj1 (C21_sort_correct ts ts' E)) as C.
  assert (R : seqs_in_range ts) by (apply C21_sort_succeeds_iff; eauto).
  assert (R' : seqs_in_range ts') by (apply C21_sort_succeeds_iff; exists ts'; eapply C21_sort_idempotent; exact E).
  destruct (C100_order_does_not_matter ts ts' tk tk' text s b s' b' r c r' c' (same_content_sym _ _ C) Hn Ht Ht' R R' Ms Mr Es Er)
    as (_ & H & _).
  eapply H; eassumption.
Qed.

(** Ties are broken towards the end of the text: with "a" and "aa" but not
    "aaa" in the set, "aaa" is cut into "a" and "aa", never the other way. *)
Theorem C100_tie : forall ts tk a i j s buffer s' buffer',
  tokenizer_new ts = Ret tk -> seqs_in_range ts -> (forall q, In q (sequences ts) -> seq_tokens q <> []) -> matches ts s ->
  nth_error (tokens ts) i = Some (Str [a]) -> nth_error (tokens ts) j = Some (Str [a; a]) ->
  ~ In [a; a; a] (strings ts) ->
  process_slice tk [a; a; a] s buffer = Ret (s', buffer') ->
  optimal ts [PTok i; PTok j] [a; a; a] /\ optimal ts [PTok j; PTok i] [a; a; a] /\
  nth (i * ntokens ts + j) (pair_counts s') 0 = nth (i * ntokens ts + j) (pair_counts s) 0 + 1 /\
  nth (j * ntokens ts + i) (pair_counts s') 0 = nth (j * ntokens ts + i) (pair_counts s) 0.
Proof.
  intros ts tk a i j s buffer s' buffer' H Hr Hne Hm Hi Hj Hno E.
  pose proof (tk_ok_usable _ _ (tokenizer_new_ok _ _ H)) as Hu.
  destruct (C100_segmentation_counted ts tk [a; a; a] s buffer s' buffer' H Hr Hm E) as (ps & Ho & Hl & Hc & Huq).
  assert (Pi : piece_string ts (PTok i) = Some [a]) by (cbn; rewrite Hi; reflexivity).
  assert (Pj : piece_string ts (PTok j) = Some [a; a]) by (cbn; rewrite Hj; reflexivity).
  assert (Sij : segments ts [PTok i; PTok j] [a; a; a]).
  { apply (seg_cons ts (PTok i) [PTok j] [a] [a; a] Pi). apply (seg_cons ts (PTok j) [] [a; a] [] Pj). constructor. }
  assert (Sji : segments ts [PTok j; PTok i] [a; a; a]).
  { apply (seg_cons ts (PTok j) [PTok i] [a; a] [a] Pj). apply (seg_cons ts (PTok i) [] [a] [] Pi). constructor. }
  assert (Hmin : forall qs, segments ts qs [a; a; a] -> 2 <= length (stream ts qs)).
  { intros qs Hqs. inversion Hqs as [|p qs' x r Hp Hqs' E1 E2]; subst.
    assert (Hpos : forall p x, piece_string ts p = Some x -> 1 <= length (piece_tokens ts p)).
    { intros p0 x0 Hp0. destruct p0 as [k|k]; cbn; [lia|]. cbn in Hp0.
      destruct (nth_error (sequences ts) k) as [sq|] eqn:Ek; [|discriminate]. apply nth_error_In in Ek. apply Hne in Ek.
      destruct (seq_tokens sq); cbn; [congruence|lia]. }
    inversion Hqs' as [|p2 qs2 x2 r2 Hp2 Hqs2]; subst.
    - rewrite app_nil_r in E2. subst x. exfalso. apply Hno, in_strings. eauto.
    - unfold stream. cbn [flat_map]. rewrite !app_length. apply Hpos in Hp, Hp2. lia. }
  assert (Oij : optimal ts [PTok i; PTok j] [a; a; a]) by (split; [exact Sij|intros qs Hqs; apply Hmin; exact Hqs]).
  assert (Oji : optimal ts [PTok j; PTok i] [a; a; a]) by (split; [exact Sji|intros qs Hqs; apply Hmin; exact Hqs]).
  split; [exact Oij|]. split; [exact Oji|].
  assert (Lij : longest_last ts [PTok i; PTok j]).
  { intros l p r u El Hu' qs q y z Hoq Hy Hz.
    assert (Hzu : suffix_of z u).
    { pose proof (proj1 Hoq) as Sq. apply segments_app_inv in Sq as (u1 & u2 & Eu & _ & S2). apply segments_single in S2.
      exists u1. congruence. }
    destruct l as [|l0 [|l1 l]].
    - injection El as <- <-. rewrite Pi in Hy. injection Hy as <-. pose proof Hu' as Hu''. apply segments_single in Hu''. rewrite Pi in Hu''. injection Hu'' as <-.
      apply suffix_length in Hzu. exact Hzu.
    - injection El as <- <- <-. rewrite Pj in Hy. injection Hy as <-.
      rewrite (segments_fun _ _ _ _ Hu' Sij) in Hzu. pose proof (suffix_length _ _ Hzu) as Hlz. cbn in Hlz |- *.
      destruct (Nat.eq_dec (length z) 3) as [E3|]; [|lia]. exfalso.
      assert (z = [a; a; a]) as -> by (apply (suffix_eq z [a; a; a] [a; a; a]); [exact Hzu|apply suffix_refl|exact E3]).
      apply Hno, in_strings. eauto.
    - apply (f_equal (@List.length _)) in El. cbn in El. rewrite app_length in El. cbn in El. lia. }
  rewrite <- (Huq _ Oij Lij) in Hc.
  assert (Li : i < ntokens ts) by (apply nth_error_Some; congruence). assert (Lj : j < ntokens ts) by (apply nth_error_Some; congruence).
  assert (Nij : i <> j) by (intros ->; congruence).
  rewrite !(counted_pairs _ _ _ _ _ Hc) by assumption. cbn. rewrite !Nat.eqb_refl.
  replace (i =? j) with false by (symmetry; apply Nat.eqb_neq; exact Nij). cbn. lia.
Qed.

(** The bytes and "aa": listed in this order the set is not sorted. *)
Lemma canonical_example : exists ts ts' tk tk' i j,
  ts_sort ts = Ret ts' /\ tokens ts <> tokens ts' /\ same_content ts ts' /\ NoDup (tokens ts) /\
  tokenizer_new ts = Ret tk /\ tokenizer_new ts' = Ret tk' /\ seqs_in_range ts /\ seqs_in_range ts' /\
  (forall q, In q (sequences ts) -> seq_tokens q <> []) /\
  nth_error (tokens ts) i = Some (Str [x61]) /\ nth_error (tokens ts) j = Some (Str [x61; x61]) /\ ~ In [x61; x61; x61] (strings ts).
Proof.
  pose proof (shaped_new_bytes Raw) as S0.
  assert (Hb : forall b, In (Str [b]) (tokens (new_bytes Raw))).
  { intros b. apply in_str_tokens. rewrite (str_tokens_shaped _ _ (sh_tokens _ _ S0)).
    unfold singles. apply in_map_iff. exists b. split; [reflexivity|apply in_all_bytes]. }
  assert (U : usable (new_bytes Raw)) by (rewrite new_bytes_eq; apply usable_bytes_set).
  assert (Q : sequences (new_bytes Raw) = []) by (rewrite new_bytes_eq; reflexivity).
  pose proof (shaped_NoDup _ _ S0) as Nd. pose proof (sh_range _ _ S0) as R.
  assert (L : forall x, In x (strings (new_bytes Raw)) -> length x = 1).
  { intros x Hx. rewrite (strings_shaped _ _ S0), Q, app_nil_r in Hx.
    apply in_map_iff in Hx as (b & <- & _). reflexivity. }
  clear S0. revert Hb U Q Nd R L. generalize (new_bytes Raw). intros ts Hb U Q Nd R L.
  set (t2 := add_token_unchecked ts [x61; x61]).
  assert (Hn2 : ~ In [x61; x61] (str_tokens ts)).
  { intros H. assert (length [x61; x61] = 1); [|discriminate]. apply L. unfold strings. fold (str_tokens ts). apply in_app_iff. left. exact H. }
  assert (U2 : usable t2) by (apply usable_add; [exact U|discriminate|exact Hn2]).
  assert (R2 : seqs_in_range t2) by (apply seqs_in_range_add; exact R).
  destruct (ts_sort_total _ R2) as (ts' & Es).
  destruct (C21_sort_correct _ _ Es) as (C & Sd & _).
  assert (N2 : NoDup (tokens t2)).
  { unfold t2. cbn [add_token_unchecked tokens]. apply NoDup_app_iff. split; [exact Nd|]. split; [constructor; [intros []|constructor]|].
    intros x Hx [<-|[]]. apply Hn2. apply in_str_tokens. exact Hx. }
  destruct (proj2 (C01_tokenizer_exists_iff_usable t2) U2) as (tk & Ht).
  destruct (proj1 (C08_sorting_keeps_usability _ _ Es) (ex_intro _ tk Ht)) as (tk' & Ht').
  assert (R' : seqs_in_range ts') by (apply C21_sort_succeeds_iff; exists ts'; eapply C21_sort_idempotent; exact Es).
  destruct (In_nth_error _ _ (Hb x61)) as (i & Hi).
  exists t2, ts', tk, tk', i, (length (tokens ts)).
  split; [exact Es|]. split.
  { intros E. rewrite <- E in Sd. clear - Sd Hb. unfold t2 in Sd. cbn [add_token_unchecked tokens] in Sd.
    destruct (in_split _ _ (Hb x62)) as (l & r & El). rewrite El, <- app_assoc in Sd.
    assert (G : forall (l m : list token) , StronglySorted (fun a b => a = b \/ tok_before a b) (l ++ m) -> StronglySorted (fun a b => a = b \/ tok_before a b) m).
    { induction l0 as [|x l0 IH]; intros m Hm; [exact Hm|]. inversion Hm; subst. auto. }
    apply G in Sd. inversion Sd as [|? ? _ F]; subst. rewrite Forall_forall in F.
    destruct (F (Str [x61; x61])) as [E|E]; [apply in_app_iff; right; left; reflexivity|discriminate|].
    inversion E as [| |? ? Hx]; subst. inversion Hx; subst; cbn in *; lia. }
  split; [apply same_content_sym; exact C|]. split; [exact N2|]. split; [exact Ht|]. split; [exact Ht'|]. split; [exact R2|]. split; [exact R'|].
  split; [unfold t2; cbn [add_token_unchecked sequences]; rewrite Q; intros q []|].
  split; [unfold t2; cbn [add_token_unchecked tokens]; rewrite nth_error_app1; [exact Hi|apply nth_error_Some; congruence]|].
  split; [unfold t2; cbn [add_token_unchecked tokens]; rewrite nth_error_app2, Nat.sub_diag by lia; reflexivity|].
  intros H. apply in_strings_add in H as [H|H]; [|discriminate]. apply L in H. discriminate.
Qed.
