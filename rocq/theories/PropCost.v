(** * C87: how much work tokenizing is *)
From Verif Require Import Base BaseLemmas TokenSetModel TokenizerModel TokSpec
  TokenizerProof1 TokenizerProof2 TokenSetProof PropTokenizer CostModel.

(** ** Erasing the counters gives the model *)
Definition erase {A B} (o : outcome (A * B)) : outcome A := '(a, _) <- o ;; Ret a.

Lemma erase_best fuel spans cs : forall i best n,
  erase (best_span_c fuel spans cs i best n) = best_span fuel spans cs i best.
Proof.
  induction fuel as [|f IH]; intros i best n; cbn [best_span_c best_span];
    destruct (i =? 0); try reflexivity.
  destruct (idx spans i) as [sp| |]; try reflexivity. cbn [bind].
  destruct (checked_sub _ _) as [k| |]; try reflexivity. cbn [bind].
  destruct (idx cs k) as [prev| |]; try reflexivity. cbn [bind]. apply IH.
Qed.

Lemma erase_scan tk s n b : erase (scan_byte_c tk (s, n) b) = scan_byte tk s b.
Proof.
  destruct s as [i cs]. cbn [scan_byte_c scan_byte].
  destruct (idx (tk_states tk) i) as [st| |]; try reflexivity. cbn [bind].
  destruct (idx (ss_next st) (b2n b)) as [j| |]; try reflexivity. cbn [bind].
  destruct (idx (tk_states tk) j) as [st'| |]; try reflexivity. cbn [bind].
  rewrite <- (erase_best (length cs) (tk_spans tk) cs (ss_span st') None n).
  destruct (best_span_c _ _ _ _ _ _) as [[best n']| |]; try reflexivity. cbn [bind erase].
  destruct best; reflexivity.
Qed.

Lemma erase_fold tk text : forall s n,
  erase (mfold (scan_byte_c tk) text (s, n)) = mfold (scan_byte tk) text s.
Proof.
  induction text as [|b text IH]; intros s n; cbn [mfold]; [reflexivity|].
  rewrite <- (erase_scan tk s n b).
  destruct (scan_byte_c tk (s, n) b) as [[s' n']| |]; try reflexivity. cbn [bind erase]. apply IH.
Qed.

Lemma erase_back fuel tk ntok cs : forall pos nx sc ps n,
  erase (back_trace_c fuel tk ntok cs pos nx sc ps n) = back_trace fuel tk ntok cs pos nx sc ps.
Proof.
  induction fuel as [|f IH]; intros pos nx sc ps n; cbn [back_trace_c back_trace];
    destruct (pos =? 0); try reflexivity.
  destruct (idx cs pos) as [c| |]; try reflexivity. cbn [bind].
  destruct (idx_upd sc _ _) as [sc'| |]; try reflexivity. cbn [bind].
  destruct (idx (tk_spans tk) _) as [sp| |]; try reflexivity. cbn [bind].
  match goal with |- erase (bind ?m _) = _ => destruct m as [[nx' ps']| |]; try reflexivity end. cbn [bind].
  destruct (checked_sub _ _) as [k| |]; try reflexivity. cbn [bind]. apply IH.
Qed.

Lemma erase_update tk cs bytes s : erase (update_stats_c tk cs bytes s) = update_stats tk cs bytes s.
Proof.
  unfold update_stats_c, update_stats. destruct (unwrap _) as [l| |]; try reflexivity. cbn [bind].
  rewrite <- (erase_back (length bytes) tk (ntokens (st_token_set s)) cs (length bytes) None
               (repeat 0 (length (tk_spans tk))) (pair_counts s) 0).
  destruct (back_trace_c _ _ _ _ _ _ _ _ _) as [[[sc ps] n]| |]; try reflexivity. cbn [bind erase].
  destruct (mfold _ _ _) as [[tc qc]| |]; reflexivity.
Qed.

Theorem C87_counters_are_only_added : forall tk text s buffer,
  (r <- process_slice_c tk text s buffer ;; let '(s', buffer', _, _) := r in Ret (s', buffer'))
  = process_slice tk text s buffer.
Proof.
  intros tk text s buffer. unfold process_slice_c, process_slice.
  rewrite <- (erase_fold tk text (0, firstn 0 buffer ++ [mkCost 0 0]) 0).
  destruct (mfold (scan_byte_c tk) _ _) as [[[i cs] n]| |]; try reflexivity. cbn [bind erase].
  rewrite <- (erase_update tk cs text s).
  destruct (update_stats_c _ _ _ _) as [[s' m]| |]; reflexivity.
Qed.

(** ** Specification: the occurrences of the strings of the set in a text *)
(** The string [s] ends at position [p] of the text. *)
Definition ends_at (text : bstr) (p : nat) (s : bstr) : bool :=
  (length s <=? p) && bstr_eqb (firstn (length s) (skipn (p - length s) text)) s.
(** The number of places in the text at which a string of the set occurs. *)
Definition occurrences (ts : tokenset) (text : bstr) : nat :=
  sum (map (fun p => length (filter (ends_at text p) (strings ts))) (seq 1 (length text))).

(** ** The number of iterations *)
Definition is_suffix (w s : bstr) : bool := if bstr_eq_dec (skipn (length w - length s) w) s then true else false.

Lemma is_suffix_spec w s : is_suffix w s = true <-> suffix_of s w.
Proof.
  unfold is_suffix. destruct (bstr_eq_dec _ _) as [E|E]; (split; [intros H|intros H]); try congruence.
  - rewrite <- E. apply suffix_skipn.
  - exfalso. apply E. symmetry. apply suffix_skipn_inv. exact H.
Qed.

Definition matching (ts : tokenset) (w : bstr) (n : nat) : nat :=
  length (filter (fun s => is_suffix w s && (length s <=? n)) (strings ts)).

Lemma filter_one (l : list bstr) x (f g : bstr -> bool) : NoDup l -> In x l ->
  (forall y, In y l -> f y = (if bstr_eq_dec y x then true else g y)) -> g x = false ->
  length (filter f l) = S (length (filter g l)).
Proof.
  intros Hnd. revert x. induction Hnd as [|a l Ha Hnd IH]; intros x Hx Hf Hg; [destruct Hx|destruct Hx as [Hx|Hx]].
  - subst a. cbn [filter]. rewrite (Hf x (or_introl eq_refl)), Hg.
    destruct (bstr_eq_dec x x) as [_|C]; [|congruence]. cbn [length]. f_equal. f_equal.
    apply filter_ext_in. intros y Hy. rewrite (Hf y (or_intror Hy)).
    destruct (bstr_eq_dec y x) as [->|_]; [contradiction|reflexivity].
  - cbn [filter]. rewrite (Hf a (or_introl eq_refl)).
    destruct (bstr_eq_dec a x) as [->|_]; [contradiction|].
    assert (E : length (filter f l) = S (length (filter g l))).
    { apply (IH x Hx); auto. intros y Hy. apply Hf. right. exact Hy. }
    destruct (g a); cbn [length]; lia.
Qed.

Section Count.
Variable ts : tokenset.
Variable tk : tokenizer.
Hypothesis Htk : tk_ok ts tk.

Lemma matching_step w n x : In x (strings ts) -> suffix_of x w -> x <> [] -> length x <= n ->
  (forall y, suffix_of y w -> In y ([] :: strings ts) -> length y <= n -> suffix_of y x) ->
  matching ts w n = S (matching ts w (length x - 1)).
Proof.
  intros Hin Hs Hne Hl Hmax. unfold matching.
  assert (Hl0 : 0 < length x) by (destruct x; cbn; [congruence|lia]).
  pose proof (tk_nodup _ _ Htk) as Hnd. inversion Hnd as [|? ? _ Hnd']; subst.
  apply (filter_one _ x); auto.
  - intros y Hy. destruct (bstr_eq_dec y x) as [->|Hyx].
    + rewrite (proj2 (is_suffix_spec w x) Hs), (proj2 (Nat.leb_le _ _) Hl). reflexivity.
    + destruct (is_suffix w y) eqn:Es; cbn [andb]; [|reflexivity]. apply is_suffix_spec in Es.
      destruct (Nat.leb_spec (length y) n) as [Hyn|Hyn]; symmetry.
      * apply Nat.leb_le. assert (Hyx' : suffix_of y x) by (apply Hmax; auto; right; exact Hy).
        pose proof (suffix_length _ _ Hyx') as Hle.
        destruct (Nat.eq_dec (length y) (length x)) as [E|E]; [|lia].
        exfalso. apply Hyx. apply (suffix_eq y x w); auto.
      * apply Nat.leb_gt. lia.
  - rewrite (proj2 (Nat.leb_gt _ _)); [apply andb_false_r|lia].
Qed.

Lemma best_span_count cs w : length cs = length w -> forall fuel n i best k,
  n <= fuel -> n <= length w -> longest ([] :: strings ts) n w i ->
  exists r, best_span_c fuel (tk_spans tk) cs i best k = Ret (r, k + matching ts w n).
Proof.
  intros Hcs. induction fuel as [|fuel IH]; intros n i best k Hn Hw Hl.
  - assert (n = 0) as -> by lia.
    assert (i = 0) as ->.
    { destruct Hl as [(-> & _)|(_ & x & _ & Hne & _ & Hx & _)]; [reflexivity|].
      destruct x; cbn in Hx; [congruence|lia]. }
    cbn. exists best. f_equal. f_equal. unfold matching.
    replace (filter _ (strings ts)) with (@nil bstr); [cbn; lia|]. symmetry.
    pose proof (tk_nodup _ _ Htk) as Hnd. inversion Hnd as [|? ? Hni Hnd']; subst.
    clear - Hni. induction (strings ts) as [|y l IHl]; cbn [filter]; [reflexivity|].
    rewrite IHl by (cbn in Hni; tauto). destruct y as [|b y]; [exfalso; apply Hni; left; reflexivity|].
    rewrite andb_false_r. reflexivity.
  - destruct Hl as [(-> & Hno)|(Hpos & x & Hx & Hxne & Hxs & Hxn & Hxm)].
    + cbn. exists best. f_equal. f_equal. unfold matching.
      replace (filter _ (strings ts)) with (@nil bstr); [cbn; lia|]. symmetry.
      pose proof (tk_nodup _ _ Htk) as Hnd. inversion Hnd as [|? ? Hni Hnd']; subst.
      assert (Hno' : forall y, In y (strings ts) -> is_suffix w y && (length y <=? n) = false).
      { intros y Hy. apply not_true_iff_false. rewrite andb_true_iff, is_suffix_spec, Nat.leb_le.
        intros (H1 & H2). apply (Hno y); auto; [|right; exact Hy].
        intros ->. contradiction. }
      clear - Hno'. induction (strings ts) as [|y l IHl]; cbn [filter]; [reflexivity|].
      rewrite (Hno' y (or_introl eq_refl)). apply IHl. intros z Hz. apply Hno'. right. exact Hz.
    + cbn [best_span_c]. replace (i =? 0) with false by (symmetry; apply Nat.eqb_neq; lia).
      assert (Hin : In x (strings ts)).
      { apply nth_error_In in Hx as [E|Hx]; [congruence|exact Hx]. }
      apply (nth_D ts tk Htk) in Hx as (sp & Hi & Es). unfold idx at 1; rewrite Hi; cbn [unwrap bind].
      rewrite Es. rewrite checked_sub_le by lia. cbn [bind].
      assert (Hxl : length x <> 0) by (destruct x; cbn; congruence).
      destruct (nth_error cs (length cs - length x)) as [prev|] eqn:Ep;
        [|apply nth_error_None in Ep; lia].
      unfold idx; rewrite Ep; cbn [unwrap bind].
      pose proof (tk_suffix _ _ Htk i sp Hi Hpos) as Hsuf. rewrite Es in Hsuf.
      match goal with |- context [best_span_c fuel _ _ _ ?b _] =>
        destruct (IH (length x - 1) (sp_suffix sp) b (S k)) as (r & Hr) end;
        [lia|lia|apply (longest_suffix_eq ts _ x); auto; lia|].
      exists r. rewrite Hr. f_equal. f_equal.
      rewrite (matching_step w n x Hin Hxs Hxne Hxn Hxm). lia.
Qed.

Lemma scan_count bytes : usable ts -> forall rest w i cs k,
  bytes = w ++ rest -> length cs = S (length w) -> cs_ok ts tk bytes cs -> at_state tk w i ->
  exists j cs', mfold (scan_byte_c tk) rest (i, cs, k)
    = Ret (j, cs', k + sum (map (fun p => matching ts (firstn p bytes) p) (seq (S (length w)) (length rest)))) /\
    length cs' = S (length bytes).
Proof.
  intros Hus. induction rest as [|b rest IH]; intros w i cs k Hb Hlen Hok Hat; cbn [mfold].
  - exists i, cs. cbn. rewrite Nat.add_0_r. split; [reflexivity|]. subst bytes. rewrite app_nil_r. exact Hlen.
  - destruct (scan_step ts tk Htk Hus bytes w i cs b Hlen (ex_intro _ rest Hb) Hok Hat)
      as (j & cs' & E & Hlen' & Hok' & Hat').
    assert (Hlw : length (w ++ [b]) = S (length w)) by (rewrite app_length; cbn; lia).
    assert (Ec : scan_byte_c tk (i, cs, k) b = Ret (j, cs', k + matching ts (w ++ [b]) (length (w ++ [b])))).
    { pose proof (erase_scan tk (i, cs) k b) as Hers. rewrite E in Hers.
      destruct (at_state_step ts tk Htk w i b Hat) as (st & j' & Hst & Hj & Hat'').
      pose proof Hat'' as (st' & Hst' & _).
      pose proof (at_state_span ts tk Htk _ _ _ Hat'' Hst') as Hl.
      revert Hers. cbn [scan_byte_c]. unfold idx at 1. rewrite Hst; cbn [unwrap bind].
      unfold idx at 1. rewrite Hj; cbn [unwrap bind].
      unfold idx at 1. rewrite Hst'; cbn [unwrap bind].
      destruct (best_span_count cs (w ++ [b]) ltac:(lia) (length cs) (length (w ++ [b])) (ss_span st') None k)
        as (r & Hr); [lia|lia|exact Hl|]. rewrite !Hr. cbn [bind].
      destruct r as [c|]; cbn [unwrap bind erase]; [|discriminate].
      unfold idx at 1. rewrite Hst; cbn [unwrap bind].
      unfold idx at 1. rewrite Hj; cbn [unwrap bind].
      unfold idx at 1. rewrite Hst'; cbn [unwrap bind]. rewrite Hr. cbn [bind unwrap].
      intros Heq. injection Heq as -> ->. reflexivity. }
    rewrite Ec. cbn [bind].
    destruct (IH (w ++ [b]) j cs' (k + matching ts (w ++ [b]) (length (w ++ [b])))) as (j2 & cs2 & E2 & L2).
    + rewrite <- app_assoc. exact Hb.
    + exact Hlen'.
    + exact Hok'.
    + exact Hat'.
    + exists j2, cs2. split; [|exact L2]. rewrite E2. f_equal. f_equal.
      cbn [length seq map sum fold_right]. rewrite Hlw.
      replace (firstn (S (length w)) bytes) with (w ++ [b]).
      * unfold sum. lia.
      * rewrite Hb. change (b :: rest) with ([b] ++ rest). rewrite app_assoc, <- Hlw.
        rewrite firstn_app, firstn_all, Nat.sub_diag, app_nil_r. reflexivity.
Qed.
End Count.

Lemma bstr_eqb_iff x y : bstr_eqb x y = true <-> x = y.
Proof. apply bstr_eqb_eq. Qed.

Lemma matching_ends ts text p : p <= length text ->
  matching ts (firstn p text) p = length (filter (ends_at text p) (strings ts)).
Proof.
  intros Hp. unfold matching. f_equal. apply filter_ext. intros s.
  apply eq_true_iff_eq. unfold ends_at. rewrite !andb_true_iff, is_suffix_spec, bstr_eqb_iff, !Nat.leb_le.
  assert (Lp : length (firstn p text) = p) by (rewrite firstn_length; lia).
  split.
  - intros (H1 & H2). split; [exact H2|]. apply suffix_skipn_inv in H1. rewrite Lp in H1.
    rewrite H1 at 3. rewrite skipn_firstn_comm. f_equal. lia.
  - intros (H1 & H2). split; [|exact H1]. exists (firstn (p - length s) text).
    rewrite <- H2 at 2. rewrite <- (firstn_skipn (p - length s) (firstn p text)) at 1.
    rewrite firstn_firstn, Nat.min_l by lia. f_equal. rewrite skipn_firstn_comm. f_equal. lia.
Qed.

Lemma back_steps fuel tk ntok cs : forall pos nx sc ps n r m,
  back_trace_c fuel tk ntok cs pos nx sc ps n = Ret (r, m) -> m <= n + fuel.
Proof.
  induction fuel as [|f IH]; intros pos nx sc ps n r m; cbn [back_trace_c]; destruct (pos =? 0);
    try (intros E; injection E as _ <-; lia); [discriminate|].
  destruct (idx cs pos) as [c| |]; try discriminate. cbn [bind].
  destruct (idx_upd sc _ _) as [sc'| |]; try discriminate. cbn [bind].
  destruct (idx (tk_spans tk) _) as [sp| |]; try discriminate. cbn [bind].
  match goal with |- bind ?m _ = _ -> _ => destruct m as [[nx' ps']| |]; try discriminate end. cbn [bind].
  destruct (checked_sub _ _) as [k| |]; try discriminate. cbn [bind]. intros E. apply IH in E. lia.
Qed.

(** Tokenizing a text of [n] bytes: the inner loop of the scan runs exactly once
    per occurrence of a string of the set in the text, the back-trace at most
    once per byte, and the buffer holds [n + 1] entries. *)
Theorem C87_work : forall ts tk text s buffer,
  tokenizer_new ts = Ret tk -> seqs_in_range ts -> matches ts s ->
  exists s' buffer' tried back,
    process_slice_c tk text s buffer = Ret (s', buffer', tried, back) /\
    process_slice tk text s buffer = Ret (s', buffer') /\
    tried = occurrences ts text /\ back <= length text /\ length buffer' = S (length text).
Proof.
  intros ts tk text s buffer H Hr Hm. pose proof (tokenizer_new_ok ts tk H) as Hok.
  pose proof (tk_ok_usable _ _ Hok) as Hus.
  destruct (C07_total_and_buffer_independent ts tk text s H Hr Hm) as (s' & b' & E). specialize (E buffer).
  pose proof (C87_counters_are_only_added tk text s buffer) as Her. rewrite E in Her.
  destruct (scan_count ts tk Hok text Hus text [] 0 [mkCost 0 0] 0) as (j & cs & Ec & Hl).
  - reflexivity.
  - reflexivity.
  - split.
    + eexists; split; [reflexivity|]; reflexivity.
    + intros [|k] c Hc; [|destruct k; discriminate]. injection Hc as <-. split; [|lia].
      exists []. split; [|reflexivity]. split; [constructor|]. intros; cbn; lia.
  - apply (at_state_0 ts tk Hok).
  - revert Her. unfold process_slice_c. cbn [firstn app]. rewrite Ec. cbn [bind].
    destruct (update_stats_c tk cs text s) as [[s2 m]| |] eqn:Eu; cbn [bind]; try discriminate.
    intros Heq. injection Heq as -> ->.
    eexists _, _, _, _. split; [reflexivity|]. split; [exact E|]. split; [|split; [|exact Hl]].
    + cbn [Nat.add length]. unfold occurrences. f_equal. apply map_ext_in. intros p Hp. apply in_seq in Hp.
      apply matching_ends. lia.
    + revert Eu. unfold update_stats_c. destruct (unwrap _) as [l| |]; try discriminate. cbn [bind].
      destruct (back_trace_c _ _ _ _ _ _ _ _ _) as [[[sc ps] n]| |] eqn:Eb; try discriminate. cbn [bind].
      destruct (mfold (count_span _) _ _) as [[tc qc]| |]; try discriminate. cbn [bind]. intros Heq. injection Heq as _ <-.
      apply back_steps in Eb. lia.
Qed.

(** At most [longest] occurrences end at a position, and at least one does: the
    work is linear in the text. *)
Lemma sum_bounds f lo hi : forall a n, (forall p, a <= p < a + n -> lo <= f p <= hi) ->
  n * lo <= sum (map f (seq a n)) <= n * hi.
Proof.
  intros a n. revert a. induction n as [|n IH]; intros a H; cbn [seq map sum fold_right]; [lia|].
  pose proof (H a ltac:(lia)). specialize (IH (S a)). unfold sum in IH.
  destruct IH as (I1 & I2); [intros p Hp; apply H; lia|]. lia.
Qed.

Lemma NoDup_map_in {A B} (f : A -> B) (l : list A) :
  (forall x y, In x l -> In y l -> f x = f y -> x = y) -> NoDup l -> NoDup (map f l).
Proof.
  intros Hinj Hnd. induction Hnd as [|a l Ha Hnd IH]; cbn; constructor.
  - intros Hx. apply in_map_iff in Hx as (y & E & Hy). apply Ha.
    rewrite <- (Hinj y a (or_intror Hy) (or_introl eq_refl) E). exact Hy.
  - apply IH. intros x y Hx Hy. apply Hinj; right; assumption.
Qed.

Theorem C87_linear : forall ts tk text maxlen,
  tokenizer_new ts = Ret tk -> (forall x, In x (strings ts) -> length x <= maxlen) ->
  length text <= occurrences ts text <= length text * maxlen.
Proof.
  intros ts tk text L H HL. pose proof (tokenizer_new_ok ts tk H) as Hok.
  destruct (tk_ok_usable _ _ Hok) as (Hnd & Hne & Hby).
  unfold occurrences. rewrite <- (Nat.mul_1_r (length text)) at 1. apply sum_bounds. intros p Hp.
  assert (Hin : forall x, In x (filter (ends_at text p) (strings ts)) ->
            In x (strings ts) /\ length x <= p /\ firstn (length x) (skipn (p - length x) text) = x).
  { intros x Hx. apply filter_In in Hx as (H1 & H2). unfold ends_at in H2.
    rewrite andb_true_iff, Nat.leb_le, bstr_eqb_iff in H2. tauto. }
  split.
  - destruct (nth_error text (p - 1)) as [b|] eqn:Eb; [|apply nth_error_None in Eb; lia].
    destruct (nth_error_split _ _ Eb) as (u & v & Eu & Lu).
    assert (Hb : In [b] (filter (ends_at text p) (strings ts))).
    { apply filter_In. split; [apply Hby|]. unfold ends_at. rewrite andb_true_iff, Nat.leb_le, bstr_eqb_iff.
      split; [cbn; lia|]. cbn [length]. rewrite Eu, <- Lu, skipn_app, skipn_all, Nat.sub_diag. reflexivity. }
    destruct (filter _ _); [destruct Hb|cbn; lia].
  - (* different occurrences ending at p have different lengths in 1..L *)
    set (F := filter (ends_at text p) (strings ts)) in *.
    assert (HndF : NoDup F) by (apply NoDup_filter; exact Hnd).
    assert (Hmap : NoDup (map (@length byte) F)).
    { apply NoDup_map_in; [|exact HndF].
      intros x y Hx Hy E. destruct (Hin _ Hx) as (_ & _ & Ex). destruct (Hin _ Hy) as (_ & _ & Ey).
      rewrite <- Ex, <- Ey, E. reflexivity. }
    assert (Hincl : length (map (@length byte) F) <= length (seq 1 L));
      [|rewrite map_length, seq_length in Hincl; exact Hincl].
    apply NoDup_incl_length; [exact Hmap|]. intros k Hk. apply in_map_iff in Hk as (x & <- & Hx).
    destruct (Hin _ Hx) as (H1 & _). apply in_seq. specialize (HL _ H1).
    assert (0 < length x) by (destruct x; [contradiction|cbn; lia]). lia.
Qed.

(** The tables: one span per string and one more, at most one state per byte of
    the strings and one more. *)
Theorem C87_memory : forall ts tk, tokenizer_new ts = Ret tk ->
  length (tk_spans tk) = S (length (strings ts)) /\
  length (tk_states tk) <= S (sum (map (@length byte) (strings ts))).
Proof.
  intros ts tk H. pose proof (tokenizer_new_ok ts tk H) as Hok. split.
  - rewrite <- (map_length sp_string), (tk_strs _ _ Hok). reflexivity.
  - rewrite <- (map_length ss_suffix).
    assert (E : S (sum (map (@length byte) (strings ts))) = length ([] :: flat_map prefixes (strings ts))).
    { cbn [length]. f_equal. induction (strings ts) as [|x l IH]; [reflexivity|].
      cbn [map flat_map sum fold_right]. rewrite app_length. unfold prefixes at 1. rewrite map_length, seq_length.
      exact (f_equal (Nat.add (length x)) IH). }
    rewrite E. apply NoDup_incl_length; [apply (tk_nodup_states _ _ Hok)|].
    intros x Hx. apply (tk_state_in _ _ Hok) in Hx as [->|(Hne & r & Hr)]; [left; reflexivity|right].
    apply in_flat_map. exists (x ++ r). split; [exact Hr|]. apply in_prefixes. eauto.
Qed.

(** The hypotheses are met, e.g. by the bytes with "\nb". *)
Example C87_hypotheses_met :
  (exists tk, tokenizer_new para_ex = Ret tk) /\ seqs_in_range para_ex /\
  matches para_ex (stats_new para_ex None) /\ (forall x, In x (strings para_ex) -> length x <= 2).
Proof.
  split; [|split; [|split]].
  - apply usable_tokenizer. apply usable_add.
    + rewrite new_bytes_eq. apply usable_bytes_set.
    + discriminate.
    + rewrite new_bytes_eq. unfold str_tokens. intros H.
      assert (H2 : In [x0a; x62] (strings (bytes_set Raw))) by (apply in_app_iff; left; exact H).
      rewrite strings_bytes_set in H2. apply in_map_iff in H2 as (c & E & _). discriminate.
  - apply seqs_in_range_add. rewrite new_bytes_eq. intros q t Hq. destruct Hq.
  - apply matches_new.
  - intros x Hx. apply para_ex_strings in Hx as [(c & ->)| ->]; cbn; lia.
Qed.

(** With "a", "b", "aa" and "ab", the text "aaab" holds four single bytes, two
    "aa" and one "ab". *)
Example C87_example :
  occurrences (mkTS 0 Bytes Raw false [Str [x61]; Str [x62]; Str [x61; x61]; Str [x61; x62]] [])
              [x61; x61; x61; x62] = 7.
Proof. reflexivity. Qed.
