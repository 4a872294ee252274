(** * C76: the older tokenizer (src/tokenizer.rs) *)
From Verif Require Import Base BaseLemmas LegacyModel LegacySpec LegacyTok.

Lemma counted_total ts ps f samples w s s1 : l_total ts ps f samples s ->
  l_counted ps (f w) [] (mkLstats (ls_lit_cost s) (ls_tokens s) (ls_pairs s) (ls_literals s) (ls_scanned s + length w)) s1 ->
  l_total ts ps f (samples ++ [w]) s1.
Proof.
  intros [T1 T2 T3 T4 T5 T6 T7 T8 T9] [C1 C2 C3 C4 C5 C6 C7 C8 C9]. cbn [ls_lit_cost ls_tokens ls_literals ls_scanned ls_pairs] in *.
  constructor.
  - congruence.
  - congruence.
  - intros i. rewrite C3, T3, flat_map_app, count_occ_app. cbn [flat_map]. rewrite app_nil_r. reflexivity.
  - congruence.
  - intros b. rewrite C5, T5, flat_map_app, count_occ_app. cbn [flat_map]. rewrite app_nil_r. reflexivity.
  - rewrite C6, T6, concat_app, app_length. cbn [concat]. rewrite app_nil_r. reflexivity.
  - auto.
  - apply C8, T8.
  - intros k. rewrite C9, T9. destruct ps; [|reflexivity].
    rewrite flat_map_app, filter_app, app_length. cbn [flat_map]. rewrite !app_nil_r. reflexivity.
Qed.

Lemma total_nil ts ps f : l_total ts ps f [] (lstats_new (length (l_tokens ts)) (literal_cost (l_enc ts))).
Proof.
  constructor; cbn [lstats_new ls_lit_cost ls_tokens ls_literals ls_scanned ls_pairs].
  - reflexivity.
  - apply repeat_length.
  - intros i. cbn. clear. revert i. induction (length (l_tokens ts)) as [|n IH]; intros [|i]; cbn; auto.
  - apply repeat_length.
  - intros b. cbn [flat_map count_occ]. generalize (b2n b), 256. clear. intros i n. revert i.
    induction n as [|n IH]; intros [|i]; cbn; auto.
  - reflexivity.
  - constructor.
  - intros k c [].
  - intros k. destruct ps; reflexivity.
Qed.

Lemma add_all_spec a b : length a = length b ->
  exists r, add_all a b = Ret r /\ length r = length a /\ forall i, nth i r 0 = nth i a 0 + nth i b 0.
Proof.
  revert b; induction a as [|x a IH]; intros [|y b] E; try discriminate; cbn [add_all].
  - exists []. repeat split. intros [|i]; reflexivity.
  - injection E as E. destruct (IH b E) as (r & -> & Hl & Hr). cbn [bind]. exists (x + y :: r).
    split; [reflexivity|]. split; [cbn; congruence|]. intros [|i]; cbn; auto.
Qed.

Lemma pairs_merge o m :
  (NoDup (map fst m) -> NoDup (map fst (fold_left (fun m kc => key_add m (fst kc) (snd kc)) o m))) /\
  ((forall k c, In (k, c) o -> 0 < c) -> (forall k c, In (k, c) m -> 0 < c) ->
    forall k c, In (k, c) (fold_left (fun m kc => key_add m (fst kc) (snd kc)) o m) -> 0 < c) /\
  forall k, key_get (fold_left (fun m kc => key_add m (fst kc) (snd kc)) o m) k = key_get m k + key_get o k.
Proof.
  revert m. induction o as [|[k c] o IH]; intros m; cbn [fold_left fst snd].
  - split; [auto|]. split; [auto|]. intros k. cbn. lia.
  - destruct (IH (key_add m k c)) as (H1 & H2 & H3). split; [|split].
    + intros H. apply H1, key_add_nodup, H.
    + intros Ho Hm. apply H2; [intros k' c' Hin; apply (Ho k' c'); right; exact Hin|].
      apply key_add_pos; [apply (Ho k c); left; reflexivity|exact Hm].
    + intros k'. rewrite H3, key_get_add, key_get_cons. lia.
Qed.

Lemma total_add ts ps f l1 l2 s1 s2 : l_total ts ps f l1 s1 -> l_total ts ps f l2 s2 ->
  exists s, lstats_add s1 s2 = Ret s /\ l_total ts ps f (l1 ++ l2) s.
Proof.
  intros [A1 A2 A3 A4 A5 A6 A7 A8 A9] [B1 B2 B3 B4 B5 B6 B7 B8 B9]. unfold lstats_add.
  destruct (add_all_spec (ls_tokens s1) (ls_tokens s2)) as (t & -> & Ht1 & Ht2); [congruence|]. cbn [bind].
  destruct (add_all_spec (ls_literals s1) (ls_literals s2)) as (l & -> & Hl1 & Hl2); [congruence|]. cbn [bind].
  destruct (pairs_merge (ls_pairs s2) (ls_pairs s1)) as (P1 & P2 & P3).
  eexists. split; [reflexivity|]. constructor; cbn [ls_lit_cost ls_tokens ls_literals ls_scanned ls_pairs].
  - exact A1.
  - congruence.
  - intros i. rewrite Ht2, A3, B3, flat_map_app, count_occ_app. reflexivity.
  - congruence.
  - intros b. rewrite Hl2, A5, B5, flat_map_app, count_occ_app. reflexivity.
  - rewrite A6, B6, concat_app, app_length. reflexivity.
  - auto.
  - apply P2; assumption.
  - intros k. rewrite P3, A9, B9. destruct ps; [|reflexivity].
    rewrite flat_map_app, filter_app, app_length. reflexivity.
Qed.

(** The way a text is cut into tokens and literals depends on the token set
    only: [f] is the same whatever the distribution of the samples over the
    threads is, and the order in which the threads finish. *)
Lemma l_tokenize_ok ts : l_ok ts -> ~ In [] (l_strings ts) ->
  exists f : bstr -> list tidx, (forall w, l_canonical ts (f w) w) /\
  forall ps parts, (forall w, In w (concat parts) -> w <> []) ->
  exists s, l_tokenize ts ps parts = Ret s /\ l_total ts ps f (concat parts) s.
Proof.
  intros Hok Hn. destruct (ltokenizer_new_ok ts Hok Hn) as (tk & Etk & Htk).
  exists (l_cut ts tk). split.
  { intros w. apply (l_process_slice_one ts tk Hn Htk w). }
  intros ps parts Hne. unfold l_tokenize. rewrite Etk. cbn [bind].
  assert (Hw : forall samples, (forall w, In w samples -> w <> []) ->
     exists s, l_worker tk ps samples = Ret s /\ l_total ts ps (l_cut ts tk) samples s).
  { intros samples Hs. unfold l_worker. rewrite (ltk_set _ _ Htk).
    assert (G : forall r l s, l_total ts ps (l_cut ts tk) l s -> (forall w, In w r -> w <> []) ->
       exists s', mfold (fun s x => _ <- assert_that (negb (bstr_eqb x [])) ;; l_process_slice tk ps x s) r s = Ret s' /\
         l_total ts ps (l_cut ts tk) (l ++ r) s').
    { induction r as [|w r IH]; intros l s Ht Hr; cbn [mfold].
      - exists s. rewrite app_nil_r. auto.
      - assert (Ew : bstr_eqb w [] = false) by (apply bstr_eqb_neq, Hr; left; reflexivity).
        rewrite Ew. cbn [negb assert_that bind].
        destruct (l_process_slice_one ts tk Hn Htk w) as (_ & Hone).
        destruct (Hone ps s (lt_tokens_length _ _ _ _ _ Ht) (lt_literals_length _ _ _ _ _ Ht)) as (s1 & -> & Hc). cbn [bind].
        destruct (IH (l ++ [w]) s1) as (s' & E & H').
        + eapply counted_total; eassumption.
        + intros x Hx; apply Hr; right; exact Hx.
        + exists s'. split; [exact E|]. rewrite <- app_assoc in H'. exact H'. }
    destruct (G samples [] _ (total_nil ts ps _) Hs) as (s' & E & H'). exists s'. auto. }
  assert (Hrs : exists rs, mmap (l_worker tk ps) parts = Ret rs /\
     Forall2 (fun l s => l_total ts ps (l_cut ts tk) l s) parts rs).
  { clear - Hw Hne. induction parts as [|l parts IH]; cbn [mmap].
    - exists []. auto.
    - destruct (Hw l) as (s & -> & Hs).
      { intros w Hin. apply Hne. cbn. apply in_or_app; left; exact Hin. }
      cbn [bind]. destruct IH as (rs & -> & Hrs).
      { intros w Hin. apply Hne. cbn. apply in_or_app; right; exact Hin. }
      cbn [bind]. exists (s :: rs). auto. }
  destruct Hrs as (rs & -> & Hrs). cbn [bind].
  assert (G : forall l0 s0, l_total ts ps (l_cut ts tk) l0 s0 ->
     exists s, mfold lstats_add rs s0 = Ret s /\ l_total ts ps (l_cut ts tk) (l0 ++ concat parts) s).
  { clear - Hrs. induction Hrs as [|l s parts rs Hs _ IH]; intros l0 s0 H0; cbn [mfold concat].
    - exists s0. rewrite app_nil_r. auto.
    - destruct (total_add _ _ _ _ _ _ _ H0 Hs) as (s1 & -> & H1). cbn [bind].
      destruct (IH _ _ H1) as (s' & E & H'). exists s'. split; [exact E|]. rewrite <- app_assoc in H'. exact H'. }
  exact (G [] _ (total_nil ts ps _)).
Qed.

(** The cost of the statistics is the cost of the segmentations. *)
Lemma sum_nth_count (g : nat -> tidx) l n (xs : list tidx) :
  (forall i j, g i = g j -> i = j) -> length l = n -> (forall i, i < n -> nth i l 0 = count_occ tidx_eq_dec xs (g i)) ->
  sum l = sum (map (fun i => count_occ tidx_eq_dec xs (g i)) (seq 0 n)).
Proof.
  intros _ Hl H. assert (E : l = map (fun i => count_occ tidx_eq_dec xs (g i)) (seq 0 n)).
  { apply nth_ext with (d := 0) (d' := count_occ tidx_eq_dec xs (g 0)).
    - rewrite map_length, seq_length. exact Hl.
    - intros i Hi. rewrite H by lia. rewrite map_nth with (f := fun i => count_occ tidx_eq_dec xs (g i)), seq_nth by lia. reflexivity. }
  rewrite <- E. reflexivity.
Qed.

Lemma count_total xs (g : nat -> tidx) n : (forall i j, g i = g j -> i < n -> j < n -> i = j) ->
  sum (map (fun i => count_occ tidx_eq_dec xs (g i)) (seq 0 n)) =
  length (filter (fun x => existsb (fun i => if tidx_eq_dec x (g i) then true else false) (seq 0 n)) xs).
Proof.
  intros Hg. induction xs as [|x xs IH]; cbn [filter].
  - cbn [count_occ length]. induction (seq 0 n); cbn; auto.
  - assert (G : forall l, (forall i, In i l -> i < n) -> NoDup l ->
      sum (map (fun i => count_occ tidx_eq_dec (x :: xs) (g i)) l) =
      sum (map (fun i => count_occ tidx_eq_dec xs (g i)) l) +
      (if existsb (fun i => if tidx_eq_dec x (g i) then true else false) l then 1 else 0)).
    { induction l as [|i l IHl]; intros Hl Hnd; [reflexivity|].
      cbn [map existsb]. change (sum (?a :: ?r)) with (a + sum r).
      inversion Hnd as [|? ? Hni Hnd']; subst.
      rewrite IHl; [|intros j Hj; apply Hl; right; exact Hj|exact Hnd'].
      cbn [count_occ]. destruct (tidx_eq_dec x (g i)) as [Ex|Ex]; cbn [orb].
      - assert (Ez : existsb (fun j => if tidx_eq_dec x (g j) then true else false) l = false).
        { destruct (existsb _ l) eqn:Eb; [|reflexivity]. exfalso.
          apply existsb_exists in Eb as (j & Hj & Eb). destruct (tidx_eq_dec x (g j)) as [Ej|]; [|discriminate].
          apply Hni. assert (i = j) as ->; [|exact Hj].
          apply Hg; [congruence|apply Hl; left; reflexivity|apply Hl; right; exact Hj]. }
        rewrite Ez. lia.
      - lia. }
    rewrite G, IH; [|intros i Hi; apply in_seq in Hi; lia|apply seq_NoDup].
    destruct (existsb _ (seq 0 n)); cbn [length]; lia.
Qed.

Lemma segments_pieces ts xs w : l_segments ts xs w -> forall x, In x xs ->
  (exists i, x = LTok i /\ i < length (l_tokens ts)) \/ (exists b, x = LLit b).
Proof.
  induction 1 as [|x xs s r Hp _ IH]; intros y Hy; [destruct Hy|].
  destruct Hy as [<-|Hy]; [|apply IH; exact Hy].
  destruct x as [i|b|]; [left|right; eauto|discriminate]. exists i. split; [reflexivity|].
  cbn in Hp. unfold l_strings in Hp. rewrite nth_error_map in Hp. apply nth_error_Some.
  destruct (nth_error (l_tokens ts) i); [discriminate|discriminate Hp].
Qed.

Lemma cost_split e n xs : (forall x, In x xs -> (exists i, x = LTok i /\ i < n) \/ (exists b, x = LLit b)) ->
  l_seg_cost e xs =
  length (filter (fun x => existsb (fun i => if tidx_eq_dec x (LTok i) then true else false) (seq 0 n)) xs) +
  literal_cost e * length (filter (fun x => existsb (fun i => if tidx_eq_dec x (LLit (n2b i)) then true else false) (seq 0 256)) xs).
Proof.
  intros H. induction xs as [|x xs IH].
  - cbn [filter length]. unfold l_seg_cost. cbn [map]. change (sum []) with 0. lia.
  - unfold l_seg_cost in *. cbn [map]. change (sum (?a :: ?r)) with (a + sum r). rewrite IH by (intros; apply H; right; assumption).
    cbn [filter]. destruct (H x (or_introl eq_refl)) as [(i & -> & Hi)|(b & ->)].
    + assert (E1 : existsb (fun j => if tidx_eq_dec (LTok i) (LTok j) then true else false) (seq 0 n) = true).
      { apply existsb_exists. exists i. split; [apply in_seq; lia|]. destruct (tidx_eq_dec (LTok i) (LTok i)); congruence. }
      assert (E2 : existsb (fun j => if tidx_eq_dec (LTok i) (LLit (n2b j)) then true else false) (seq 0 256) = false).
      { generalize (seq 0 256). intros l. induction l as [|j l IHl]; [reflexivity|]. cbn [existsb]. rewrite IHl.
        destruct (tidx_eq_dec (LTok i) (LLit (n2b j))); [discriminate|reflexivity]. }
      rewrite E1, E2. cbn [length l_piece_cost]. lia.
    + assert (E2 : existsb (fun j => if tidx_eq_dec (LLit b) (LLit (n2b j)) then true else false) (seq 0 256) = true).
      { apply existsb_exists. exists (b2n b). split; [apply in_seq; pose proof (b2n_lt b); lia|].
        rewrite n2b_b2n. destruct (tidx_eq_dec (LLit b) (LLit b)); congruence. }
      assert (E1 : existsb (fun j => if tidx_eq_dec (LLit b) (LTok j) then true else false) (seq 0 n) = false).
      { generalize (seq 0 n). intros l. induction l as [|j l IHl]; [reflexivity|]. cbn [existsb]. rewrite IHl.
        destruct (tidx_eq_dec (LLit b) (LTok j)); [discriminate|reflexivity]. }
      rewrite E1, E2. cbn [length l_piece_cost]. lia.
Qed.

Lemma l_cost_total ts ps f samples s : l_total ts ps f samples s ->
  (forall w, l_optimal ts (f w) w) ->
  l_cost s = sum (map (fun w => l_seg_cost (l_enc ts) (f w)) samples).
Proof.
  intros [T1 T2 T3 T4 T5 _ _ _ _] Hopt. unfold l_cost. rewrite T1.
  set (xs := flat_map f samples) in *.
  rewrite (sum_nth_count LTok (ls_tokens s) (length (l_tokens ts)) xs); [|intros ? ? HH; congruence|exact T2|intros; apply T3].
  assert (E : sum (ls_literals s) = sum (map (fun i => count_occ tidx_eq_dec xs (LLit (n2b i))) (seq 0 256))).
  { assert (El : ls_literals s = map (fun i => count_occ tidx_eq_dec xs (LLit (n2b i))) (seq 0 256)).
    { apply nth_ext with (d := 0) (d' := count_occ tidx_eq_dec xs (LLit (n2b 0))).
      - rewrite map_length, seq_length. exact T4.
      - intros i Hi. rewrite T4 in Hi.
        rewrite map_nth with (f := fun i => count_occ tidx_eq_dec xs (LLit (n2b i))), seq_nth by exact Hi.
        rewrite <- T5, b2n_n2b_small by exact Hi. reflexivity. }
    rewrite <- El. reflexivity. }
  rewrite E, (count_total xs LTok), (count_total xs (fun i => LLit (n2b i))).
  - rewrite <- (cost_split (l_enc ts) (length (l_tokens ts)) xs).
    + unfold xs. clear. induction samples as [|w samples IH]; [reflexivity|]. cbn [flat_map map].
      unfold l_seg_cost in *. rewrite map_app, sum_app, IH. reflexivity.
    + intros x Hx. unfold xs in Hx. apply in_flat_map in Hx as (w & _ & Hx).
      eapply segments_pieces; [apply (proj1 (Hopt w))|exact Hx].
  - intros i j H Hi Hj. injection H as H. rewrite <- (b2n_n2b_small i), <- (b2n_n2b_small j), H by assumption. reflexivity.
  - intros i j H _ _. congruence.
Qed.

(** A literal is not used for a byte that is a token. *)
Lemma optimal_literals ts xs w b : ~ In [] (l_strings ts) -> l_optimal ts xs w -> In (LLit b) xs -> ~ In [b] (l_strings ts).
Proof.
  intros Hn (Hs & Hmin) Hin Hb. apply in_split in Hin as (xs1 & xs2 & ->).
  apply l_seg_app_inv in Hs as (s & t & -> & H1 & H2). inversion H2 as [|? ? y r Hy Hr]; subst.
  apply In_nth_error in Hb as (i & Hi).
  assert (Hs' : l_segments ts (xs1 ++ LTok i :: xs2) (s ++ y ++ r)).
  { apply l_seg_app; [exact H1|]. constructor; [|exact Hr]. cbn in Hy. injection Hy as <-. exact Hi. }
  apply Hmin in Hs'. unfold l_seg_cost in Hs'. rewrite !map_app, !sum_app in Hs'. cbn [map] in Hs'.
  change (sum (?a :: ?r)) with (a + sum r) in Hs'. cbn [l_piece_cost] in Hs'.
  pose proof (literal_cost_pos (l_enc ts)). lia.
Qed.

(** Below 2^16 tokens the keys of the pairs do not collide. *)
Lemma pair_key_small i j : i < 256 * 256 -> j < 256 * 256 -> pair_key i j = (N.of_nat i * 65536 + N.of_nat j)%N.
Proof.
  intros Hi Hj. unfold pair_key. assert (Hi' : (N.of_nat i < 65536)%N) by lia. assert (Hj' : (N.of_nat j < 65536)%N) by lia.
  change (2 ^ 32)%N with 4294967296%N. rewrite (N.mod_small (N.of_nat i * 65536)) by lia. apply N.mod_small. lia.
Qed.
Lemma pair_key_inj i j i' j' : i < 256 * 256 -> j < 256 * 256 -> i' < 256 * 256 -> j' < 256 * 256 ->
  pair_key i j = pair_key i' j' -> i = i' /\ j = j'.
Proof. intros. rewrite !pair_key_small in * by assumption. lia. Qed.

(** ** C76
    For every token set made by the API:
    - building its tokenizer panics exactly when the empty string is a token;
    - otherwise there is a way [f] to cut every text into tokens and literal
      bytes, of least total cost (1 per token, [literal_cost] per literal), that uses a
      literal only for bytes that are no tokens, and [tokenize_file] returns the counts of
      the tokens, literals, bytes and adjacent pairs of tokens over all samples cut in this
      way, for every distribution of the samples over the threads and every order in which they finish;
      [cost()] is the total cost. *)
Theorem C76_legacy_tokenizer ts : l_built ts ->
  (In [] (l_strings ts) -> forall ps parts, l_tokenize ts ps parts = Panic) /\
  (~ In [] (l_strings ts) ->
   exists f : bstr -> list tidx,
     (forall w, l_canonical ts (f w) w /\ forall b, In (LLit b) (f w) -> ~ In [b] (l_strings ts)) /\
     forall ps parts,
       ((forall w, In w (concat parts) -> w <> []) ->
        exists s, l_tokenize ts ps parts = Ret s /\ l_total ts ps f (concat parts) s /\
          l_cost s = sum (map (fun w => l_seg_cost (l_enc ts) (f w)) (concat parts)))).
Proof.
  intros Hb. apply l_built_ok in Hb. split.
  - intros Hin ps parts. unfold l_tokenize. rewrite (ltokenizer_new_empty ts Hin). reflexivity.
  - intros Hn. destruct (l_tokenize_ok ts Hb Hn) as (f & Hf & H). exists f. split.
    + intros w. split; [apply Hf|]. intros b Hx. eapply optimal_literals; [exact Hn|apply (proj1 (Hf w))|exact Hx].
    + intros ps parts Hne. destruct (H ps parts Hne) as (s & E & Ht). exists s.
      split; [exact E|]. split; [exact Ht|]. eapply l_cost_total; [eassumption|]. intros w; apply (proj1 (Hf w)).
Qed.

(** With at most 2^16 tokens, the count of the pair (i, j) is the number of
    times token j follows token i. *)
Theorem C76_pair_counts ts f samples s i j : l_total ts true f samples s ->
  (forall w, l_segments ts (f w) w) ->
  length (l_tokens ts) <= 256 * 256 -> i < length (l_tokens ts) -> j < length (l_tokens ts) ->
  key_get (ls_pairs s) (pair_key i j) =
  length (filter (fun ab => (fst ab =? i) && (snd ab =? j)) (flat_map (fun w => l_adj (f w)) samples)).
Proof.
  intros T Hf Hl Hi Hj. rewrite (lt_pairs _ _ _ _ _ T). f_equal. apply filter_ext_in. intros [a b] Hab.
  assert (Hr : a < length (l_tokens ts) /\ b < length (l_tokens ts)).
  { apply in_flat_map in Hab as (w & _ & Hab). pose proof (segments_pieces _ _ _ (Hf w)) as Hp. revert Hab Hp.
    induction (f w) as [|x xs IH]; [intros []|]. intros Hab Hp. cbn [l_adj] in Hab.
    assert (IH' : In (a, b) (l_adj xs) -> a < length (l_tokens ts) /\ b < length (l_tokens ts)).
    { intros H; apply IH; [exact H|]. intros y Hy; apply Hp; right; exact Hy. }
    destruct x as [k|c|]; [|exact (IH' Hab)|exact (IH' Hab)].
    destruct xs as [|[k'|c'|] xs']; try exact (IH' Hab).
    destruct Hab as [E|Hab]; [|exact (IH' Hab)]. injection E as <- <-.
    destruct (Hp (LTok k) (or_introl eq_refl)) as [(k1 & E1 & H1)|(c & E1)]; [|discriminate].
    destruct (Hp (LTok k') (or_intror (or_introl eq_refl))) as [(k2 & E2 & H2)|(c & E2)]; [|discriminate].
    injection E1 as <-. injection E2 as <-. auto. }
  unfold has_key. cbn [fst snd]. destruct (pair_key a b =? pair_key i j)%N eqn:E.
  - apply N.eqb_eq in E. apply pair_key_inj in E as [-> ->]; [|lia..]. rewrite !Nat.eqb_refl. reflexivity.
  - destruct (Nat.eqb_spec a i) as [->|]; [|reflexivity]. destruct (Nat.eqb_spec b j) as [->|]; [|reflexivity].
    rewrite N.eqb_refl in E. discriminate.
Qed.

(** The hypotheses are met. *)
Definition w_ex : bstr := map n2b [97; 98; 97; 98; 99].
Definition ts_ex : lset := mkLset [mkLtok (map n2b [97; 98]) false; mkLtok (map n2b [97]) false]
   [(map n2b [97], 1); (map n2b [97; 98], 0)] LDist8.
Example ts_ex_built : l_built ts_ex /\ ~ In [] (l_strings ts_ex).
Proof.
  split.
  - apply (lb_add (mkLset [mkLtok (map n2b [97; 98]) false] [(map n2b [97; 98], 0)] LDist8) (map n2b [97])); [|reflexivity].
    apply (lb_add (mkLset [] [] LDist8) (map n2b [97; 98])); [|reflexivity].
    apply (lb_new LDist8). reflexivity.
  - cbn. intros [H|[H|[]]]; discriminate.
Qed.
