(** * Property C104: every multi-byte token of a result earns its place. *)
From Coq Require Import ZArith.
From Verif Require Import Base BaseLemmas TokenSetModel TokenizerModel TokSpec SortLemmas TokenizerProof1 TokenizerProof2
  TokenizerTheory TokenSetProof TokenSetProof2 PropTokenizer PropTokenSet StatsAlgebra BatchModel PropBatch
  PropJson Shaped CacheModel PropCache OptBytesModel OptBytesProof OptBytesProof2
  OptBytesProof3 OptBytesProof4 PropOptBytes OptimizeModel OptimizeProof1 OptimizeProof2 OptimizeProof3 OptimizeProof4
  OptimizeProof5 OptimizeProof6 OptimizeProof7 OptimizeProof8 PropOptimize PropDeterminism PropFixpoint PropBpe PropCanonical.

(** ** What adding a byte or a pair gains *)
Section Gain.
Variables (samples : list bstr) (init : option nat) (t : token_type) (p : processing) (sp : bool).
Hypothesis Ht : t <> BytesHuff.
Local Notation out := (outcome_of samples init).
Local Notation bo := (optimizer_for t).

Lemma byte_gain ts s ts' g N' : answered samples t p sp ts s -> (is_bits t -> base_size ts < hi t) ->
  add_byte bo s = Ret (Some (ts', g)) -> total_for ts' samples N' -> (Z.of_nat N' + g <= Z.of_nat (total_tokens s))%Z.
Proof.
  intros A Hb H (qss & Hq & ->). pose proof (an_visited A) as V. pose proof (vi_usable _ _ _ _ V) as Hu. pose proof (an_sized A) as Hz.
  destruct (an_tallied A) as (pss & T). assert (Hsp : t = BytesHuff -> sp = true) by congruence.
  unfold add_byte in H. rewrite (count_tokens_ok _ s Hu Hz) in H. cbn [bind] in H.
  rewrite checked_sub_le in H by apply n_long_le. cbn [bind] in H. fold (base_size (st_token_set s)) in H.
  assert (Ebase : base_size (st_token_set s) = base_size ts) by (unfold base_size; rewrite (an_ntokens A), (an_long A); reflexivity).
  pose proof (base_range _ _ _ _ V) as R. rewrite Ebase in R.
  destruct (bytes_optimizer_visited t p sp s (base_size (st_token_set s) + 1) Hsp Hz V) as (ts1 & E & V' & B' & L').
  - rewrite Ebase. lia.
  - intros H0. specialize (Hb H0). rewrite Ebase. lia.
  - rewrite E in H. cbn [bind] in H. destruct (Nat.eqb_spec (ntokens ts1) (ntokens (st_token_set s))) as [En|En]; [discriminate|].
    rewrite (count_tokens_ok _ s (vi_usable _ _ _ _ V') Hz) in H. cbn [bind] in H. apply ret_inj in H. injection H as <- <-.
    assert (Hbits : is_bits t).
    { destruct t; unfold is_bits; auto; try congruence. exfalso. cbn in E. injection E as <-. congruence. }
    destruct (simple_bytes_gain t p sp s (base_size (st_token_set s) + 1) Hbits Hz V) as (ts2 & E2 & G1 & G2).
    { specialize (Hb Hbits). rewrite Ebase. lia. }
    { lia. }
    assert (Eo : bo = simple_bytes) by (destruct Hbits as [->|[->| ->]]; reflexivity).
    rewrite Eo, E2 in E. injection E as ->.
    pose proof (exchange_bound _ ts1 samples pss qss s T Hu (visited_heads_free _ _ _ _ V Ht) (vi_usable _ _ _ _ V') G2 Hq) as X. lia.
Qed.

Lemma add_gain ts a r i j y k : visited t p sp ts -> answer samples init (WithPairs ts) = Ret a ->
  (is_bits t -> base_size ts < hi t) -> out (opt_add_token bo ts) = Ret r -> joins a i j y k ->
  exists ts', r = Some ts' /\ forall N', total_for ts' samples N' -> N' < total_tokens a /\ (keeps_rule y -> N' + (k + 1) / 2 <= total_tokens a).
Proof.
  intros V Ea Hb H J. pose proof (proj2 (fresh_answer_iff _ _ _ _) Ea) as F.
  destruct (fresh_answered samples init t p sp (WithPairs ts) a V F) as (A & Hpt). cbn [requested] in A.
  destruct (Hpt ts eq_refl) as (pss & T & P). pose proof (an_visited A) as Va.
  unfold opt_add_token in H. rewrite out_pairs, Ea in H. cbn [bind] in H.
  rewrite out_done in H. destruct (add_byte bo a) as [r1| |] eqn:E1; cbn [bind] in H; try discriminate.
  rewrite out_done in H. destruct (add_token_bpe a) as [r2| |] eqn:E2; cbn [bind] in H; try discriminate. cbn in H. apply ret_inj in H.
  assert (Pair : exists tp c, r2 = Some (tp, c) /\ (keeps_rule y -> k <= c) /\
     forall N', total_for tp samples N' -> N' < total_tokens a /\ N' + (c + 1) / 2 <= total_tokens a).
  { assert (G : exists x c k1 i1 j1, add_token_bpe a = Ret (Some (add_token_unchecked (st_token_set a) x, c)) /\ joins a i1 j1 x k1 /\ (keeps_rule y -> k <= c)).
    { destruct (bpe_choice (st_token_set a) samples pss a T P (vi_usable _ _ _ _ Va)) as [(_ & Hn)|[(i1 & j1 & x & k1 & E & J1 & _ & Hp)|(i1 & j1 & x & k1 & E & J1 & Hp)]].
      - exfalso. exact (Hn _ _ _ _ J).
      - exists x, k1, k1, i1, j1. split; [exact E|]. split; [exact J1|]. intros K. destruct (Hp _ _ _ _ J K) as [Hl|(-> & _)]; lia.
      - exists x, 0, k1, i1, j1. split; [exact E|]. split; [exact J1|]. intros K. destruct (Hp _ _ _ _ J) as (Hk & _). contradiction. }
    destruct G as (x & c & k1 & i1 & j1 & E & J1 & Hk). rewrite E2 in E. apply ret_inj in E. subst r2.
    exists (add_token_unchecked (st_token_set a) x), c. split; [reflexivity|]. split; [exact Hk|].
    destruct F as (tsx & s & Es & Et & Eas). cbn [requested] in Es. cbn in Eas. subst s.
    destruct (visited_sort _ _ _ _ _ V Es) as (Vx & _ & _).
    destruct (proj2 (C01_tokenizer_exists_iff_usable tsx) (vi_usable _ _ _ _ Vx)) as (tk & Htk).
    assert (Eset : st_token_set a = tsx) by (destruct (sync_tallied tsx samples init a Et (visited_range _ _ _ _ Vx)) as (pss' & T' & _); apply (ta_set _ _ _ _ T')).
    intros N' HN'.
    assert (Vt : visited t p sp (add_token_unchecked (st_token_set a) x)).
    { destruct (add_pair_ok samples t p sp ts a A (Hpt ts eq_refl)) as (r2 & Er & Hr). rewrite E2 in Er. apply ret_inj in Er.
      destruct (Hr _ _ (eq_sym Er)) as ((Vt & _) & _). exact Vt. }
    rewrite Eset in *. set (tn := add_token_unchecked tsx x) in *.
    destruct (proj2 (C01_tokenizer_exists_iff_usable tn) (vi_usable _ _ _ _ Vt)) as (tk' & Htk').
    pose proof (sync_eq tn tk' Htk' (visited_range _ _ _ _ Vt) samples init) as Es'.
    match type of Es' with _ = Ret ?s' => set (s1 := s') in * end.
    destruct (sync_tallied tn samples init s1 Es' (visited_range _ _ _ _ Vt)) as (pss1 & T1 & _).
    rewrite (total_unique _ _ _ _ HN' (tallied_total _ _ _ _ T1)).
    exact (C65_bpe_step_saves tsx tk samples init a tn c s1 Htk (visited_range _ _ _ _ Vx) (visited_nonempty _ _ _ _ Vx) Et E2 Es'). }
  destruct Pair as (tp & c & -> & Hk & Hg).
  assert (Hpick : r = Some tp \/ exists tb cb, r1 = Some (tb, cb) /\ (Z.of_nat c < cb)%Z /\ r = Some tb).
  { destruct r1 as [[tb cb]|]; [|left; congruence]. destruct (Z.ltb_spec (Z.of_nat c) cb); [right; exists tb, cb; auto|left; congruence]. }
  assert (Hkc : keeps_rule y -> (k + 1) / 2 <= (c + 1) / 2) by (intros K; apply Nat.div_le_mono; [lia|specialize (Hk K); lia]).
  destruct Hpick as [-> |(tb & cb & -> & Hlt & ->)].
  - exists tp. split; [reflexivity|]. intros N' HN'. destruct (Hg N' HN') as (G1 & G2). split; [exact G1|]. intros K. specialize (Hkc K). lia.
  - exists tb. split; [reflexivity|]. intros N' HN'. pose proof (byte_gain ts a tb cb N' A Hb E1 HN') as X. split; [lia|]. intros K. specialize (Hk K).
    assert ((k + 1) / 2 <= k) by (apply Nat.lt_succ_r, Nat.div_lt_upper_bound; destruct J as (? & ? & _ & _ & _ & _ & J); lia). lia.
Qed.
End Gain.

(** ** The end of a search *)
Lemma stuck_fails samples init t order ts n s x : shuffles order -> stuck samples init (optimizer_for t) order ts n -> ntokens ts = n ->
  answer samples init (NoPairs ts) = Ret s -> In (Str x) (tokens ts) -> 1 < length x -> fails samples init (optimizer_for t) ts n s x.
Proof.
  intros Ho (rc & rc' & H) En Es Hx Hl. unfold optimization_step in H.
  rewrite out_stats, Es in H. cbn [bind] in H.
  rewrite out_done in H. destruct (checked_sub n (n_long_tokens ts)) as [m| |]; cbn [bind] in H; try discriminate.
  rewrite out_done in H. destruct (optimizer_for t s m) as [new| |]; cbn [bind] in H; try discriminate.
  rewrite out_stats in H. destruct (answer samples init (NoPairs new)) as [ns| |]; cbn [bind] in H; try discriminate.
  destruct (total_tokens ns <? total_tokens s); [discriminate|]. rewrite outcome_bind in H.
  assert (G : exists rc3, outcome_of samples init (remove_add_token (optimizer_for t) order ts n rc) = Ret (None, rc3)).
  { destruct (outcome_of samples init (remove_add_token (optimizer_for t) order ts n rc)) as [[[z|] rc3]| |]; cbn [bind] in H; try discriminate; [|eauto].
    rewrite out_done in H. destruct (ntokens (st_token_set z) <=? n); discriminate. }
  destruct G as (rc3 & G). clear H. unfold remove_add_token in G. rewrite (proj2 (Nat.ltb_ge _ _)) in G by lia.
  rewrite out_done, (proj2 (Nat.eqb_eq _ _) En) in G. cbn [assert_that bind] in G. rewrite out_stats, Es in G. cbn [bind] in G.
  rewrite outcome_bind in G. destruct (outcome_of samples init (trade_byte (optimizer_for t) ts n s)) as [[z|]| |]; cbn [bind] in G; try discriminate.
  eapply replace_none; [exact G|]. apply (Permutation_in _ (Permutation_sym (Ho _ _))). apply flat_long_in. split; assumption.
Qed.

(** The returned statistics belong to a sorted set on which the search is stuck. *)
Lemma returned_parts threads total samples init order clock n p t pre rounds m s :
  1 <= threads -> shuffles order -> supported t n -> good_start n p t pre -> round_bound samples n <= rounds ->
  optimizing threads total samples init order clock n p t pre rounds m -> returned m s ->
  exists sp, visited t p sp (st_token_set s) /\ ts_sort (st_token_set s) = Ret (st_token_set s) /\
    answer samples init (NoPairs (st_token_set s)) = Ret s /\ stuck samples init (optimizer_for t) order (st_token_set s) n.
Proof.
  intros Ht Ho Hs Hp Hr M R.
  destruct (returned_outcome _ _ _ _ _ _ _ _ _ _ _ _ _ Ht Ho Hs Hp Hr M R) as (E1 & _).
  destruct (run_parts _ _ _ _ _ _ _ _ _ _ Ho Hs Hp Hr E1) as (sp & ts1 & ts2 & Hsp & F1 & St & Es & Ea).
  destruct (visited_sort _ _ _ _ _ (proj1 F1) Es) as (V2 & N2 & L2).
  assert (Et : st_token_set s = ts2).
  { destruct (proj2 (fresh_answer_iff _ _ _ _) Ea) as (ts3 & s3 & E3 & E4 & ->). cbn [requested] in E3.
    rewrite (C21_sort_idempotent _ _ Es) in E3. apply ret_inj in E3. subst ts3.
    destruct (sync_tallied ts2 samples init s3 E4 (visited_range _ _ _ _ V2)) as (pss & T & _). apply (ta_set _ _ _ _ T). }
  rewrite Et. exists sp. split; [exact V2|]. split; [eapply C21_sort_idempotent; exact Es|]. split; [exact Ea|].
  destruct (stuck_same samples init t p sp order order ts1 ts2 n Ho Ho (proj1 F1) V2 (sorted_same _ _ Es) St []) as (rc' & H). exists [], rc'. exact H.
Qed.

(** ** C104

    In a result that uses up its budget, giving up a multi-byte token [x] costs
    something whenever two tokens could then be joined: at least half as many
    tokens as any joinable pair of neighbours occurs. *)
Theorem C104_token_earns_its_place : forall threads total samples init order clock n p t pre rounds m s,
  1 <= threads -> shuffles order -> supported t n -> good_start n p t pre -> round_bound samples n <= rounds ->
  optimizing threads total samples init order clock n p t pre rounds m -> returned m s ->
  t <> BytesHuff -> ntokens (st_token_set s) = n ->
  forall i x ts0 ts1 s1, nth_error (tokens (st_token_set s)) i = Some (Str x) -> 1 < length x ->
  remove_token (st_token_set s) i = Ret ts0 -> ts_sort ts0 = Ret ts1 -> tokenize_file_sync ts1 samples init = Ret s1 ->
  forall a b y k, joins s1 a b y k ->
  total_tokens s < total_tokens s1 /\ (keeps_rule y -> total_tokens s + (k + 1) / 2 <= total_tokens s1).
Proof.
  intros threads total samples init order clock n p t pre rounds m s Ht Ho Hs Hp Hr M R Hh Hn i x ts0 ts1 s1 Hi Hl Hrm Hso Hto a b y k J.
  destruct (returned_parts _ _ _ _ _ _ _ _ _ _ _ _ _ Ht Ho Hs Hp Hr M R) as (sp & V & Es & Ea & St). set (ts := st_token_set s) in *.
  pose proof (nth_error_In _ _ Hi) as Hx.
  destruct (stuck_fails _ _ _ _ _ _ _ x Ho St Hn Ea Hx Hl) as (i' & new & n1 & Fi & Fr & Fn & Fa & Fo).
  assert (Ei : i' = i).
  { apply C20_find_token in Fi as (Fi & _). destruct (vi_shaped _ _ _ _ V) as (ss & S).
    apply (proj1 (NoDup_nth_error _) (shaped_NoDup _ _ S)); [apply nth_error_Some; congruence|congruence]. }
  subst i'. rewrite Hrm in Fr. apply ret_inj in Fr. subst new.
  destruct (visited_remove _ _ _ _ _ V Hx Hl) as (i' & ts0' & F1 & F2 & V0 & N0 & L0).
  rewrite Fi in F1. injection F1 as <-. rewrite Hrm in F2. apply ret_inj in F2. subst ts0'.
  assert (E1 : answer samples init (WithPairs ts0) = Ret s1) by (unfold answer; cbn [requested]; rewrite Hso; cbn [bind]; rewrite Hto; reflexivity).
  assert (Hb : is_bits t -> base_size ts0 < hi t).
  { intros Hbits. destruct (supported_bounds _ _ Hs) as (_ & Hhi). specialize (Hhi Hbits). pose proof (base_ntokens ts0). lia. }
  assert (Hout : exists r, outcome_of samples init (opt_add_token (optimizer_for t) ts0) = Ret r /\
     (forall newer, r = Some newer -> exists a', answer samples init (NoPairs newer) = Ret a' /\ total_tokens s <= total_tokens a' /\ visited t p sp newer)).
  { assert (Hsp : t = BytesHuff -> sp = true) by (intros; contradiction).
    destruct (ok_outcome samples init _ _ _ (opt_add_token_ok samples init t p sp Hsp ts0 (fun _ => True)
       (fun r => forall newer, r = Some newer -> visited t p sp newer) V0 Hb ltac:(discriminate) ltac:(intros ts' (Va & _) newer E; injection E as <-; exact Va))) as (r & Er & Hv).
    exists r. split; [exact Er|]. intros newer ->. destruct Fo as [Fo|(newer' & a' & Fo & Fs & Fl)]; rewrite Fo in Er; [discriminate|].
    apply ret_inj in Er. injection Er as ->. exists a'. split; [exact Fs|]. split; [exact Fl|]. apply Hv. reflexivity. }
  destruct Hout as (r & Er & Hr').
  destruct (add_gain samples init t p sp Hh ts0 s1 r a b y k V0 E1 Hb Er J) as (newer & -> & G).
  destruct (Hr' newer eq_refl) as (a' & Ea' & Hle & Vn).
  destruct (fresh_answered samples init t p sp (NoPairs newer) a' Vn (proj2 (fresh_answer_iff _ _ _ _) Ea')) as (A & _). cbn [requested] in A.
  destruct (G _ (an_total A)) as (G1 & G2). split; [lia|]. intros K. specialize (G2 K). lia.
Qed.

(** ** Sets with one more string *)
Section More.
Variables (ts1 : tokenset) (x : bstr).
Hypothesis Hr : seqs_in_range ts1.
Hypothesis Hx : forall q, In q (sequences ts1) -> seq_string q <> x.
Let T := add_token_unchecked ts1 x.

Lemma more_seqs : sequences T = sequences ts1.
Proof. cbn. apply filter_id. intros q Hq. apply negb_true_iff, bstr_eqb_neq. apply Hx; exact Hq. Qed.

Lemma more_piece q : q <> PTok (ntokens ts1) -> piece_string T q = piece_string ts1 q.
Proof.
  destruct q as [j|j]; intros H; unfold piece_string.
  - cbn [tokens T add_token_unchecked]. destruct (Nat.lt_ge_cases j (ntokens ts1)) as [Hl|Hl].
    + rewrite nth_error_app1 by exact Hl. reflexivity.
    + assert (Hj : j <> ntokens ts1) by congruence. rewrite nth_error_app2 by exact Hl.
      rewrite (proj2 (nth_error_None (tokens ts1) j)) by exact Hl.
      rewrite (proj2 (nth_error_None [Str x] _)); [reflexivity|]. cbn. unfold ntokens in *. lia.
  - rewrite more_seqs. reflexivity.
Qed.
Lemma more_tokens q : piece_tokens T q = piece_tokens ts1 q.
Proof. destruct q; unfold piece_tokens; [reflexivity|]. rewrite more_seqs. reflexivity. Qed.
Lemma more_stream ps : stream T ps = stream ts1 ps.
Proof. unfold stream. apply flat_map_ext. intros q. apply more_tokens. Qed.

Lemma more_segments ps u : segments ts1 ps u -> segments T ps u.
Proof.
  induction 1 as [|q ps z r Hp _ IH]; [constructor|]. constructor; [|exact IH]. rewrite more_piece; [exact Hp|].
  intros ->. cbn in Hp. rewrite (proj2 (nth_error_None _ _)) in Hp by (unfold ntokens; lia). discriminate.
Qed.
Lemma less_segments ps u : segments T ps u -> ~ In (PTok (ntokens ts1)) ps -> segments ts1 ps u.
Proof.
  induction 1 as [|q ps z r Hp _ IH]; intros Hn; [constructor|]. constructor; [|apply IH; intros H; apply Hn; right; exact H].
  rewrite <- more_piece; [exact Hp|]. intros ->. apply Hn. left; reflexivity.
Qed.

(** If [x] can be avoided in one text, both sets need the same there. *)
Lemma spared e ps u : optimal T e u -> ~ In (PTok (ntokens ts1)) e -> optimal ts1 ps u ->
  optimal T ps u /\ length (stream ts1 ps) = length (stream T e).
Proof.
  intros (Se & Me) Hn (Sp & Mp). pose proof (Mp e (less_segments e u Se Hn)) as H1. rewrite <- !more_stream in H1.
  pose proof (Me ps (more_segments ps u Sp)) as H2. split; [|rewrite <- more_stream; lia].
  split; [apply more_segments; exact Sp|]. intros qs Hq. specialize (Me qs Hq). lia.
Qed.
End More.

Lemma removed_content ts i x ts0 ts1 t p sp : visited t p sp ts -> nth_error (tokens ts) i = Some (Str x) -> 1 < length x ->
  remove_token ts i = Ret ts0 -> ts_sort ts0 = Ret ts1 ->
  same_content ts (add_token_unchecked ts1 x) /\ visited t p sp ts1.
Proof.
  intros V Hi Hl Hrm Hso. pose proof (nth_error_In _ _ Hi) as Hx.
  destruct (visited_remove _ _ _ _ _ V Hx Hl) as (i' & ts0' & F1 & F2 & V0 & N0 & L0).
  assert (Ei : i' = i).
  { apply C20_find_token in F1 as (F1 & _). destruct (vi_shaped _ _ _ _ V) as (ss & S).
    apply (proj1 (NoDup_nth_error _) (shaped_NoDup _ _ S)); [apply nth_error_Some; congruence|congruence]. }
  subst i'. rewrite Hrm in F2. apply ret_inj in F2. subst ts0'.
  destruct (visited_sort _ _ _ _ _ V0 Hso) as (V1 & _ & _).
  destruct (remove_token_ok ts i) as (ts0' & tk & E & Tk & P & D & A1 & A2 & A3 & A4);
    [apply nth_error_Some; congruence|eapply long_not_in_seq; [exact V|exact Hi|exact Hl]|].
  rewrite Hrm in E. apply ret_inj in E. subst ts0'. rewrite Hi in Tk. injection Tk as <-.
  destruct (sorted_same _ _ Hso) as (B1 & B2 & B3 & B4 & B5 & B6). split; [|exact V1].
  assert (Hq : forall q, In q (sequences ts1) -> seq_string q <> x).
  { intros q Hq E. pose proof (visited_single _ _ _ _ V1 q Hq) as H1. rewrite E in H1. lia. }
  split; [cbn; congruence|]. split; [cbn; congruence|]. split; [cbn; congruence|]. split; [cbn; congruence|]. split.
  - cbn. rewrite P, B5. apply Permutation_cons_append.
  - rewrite more_seqs by exact Hq. unfold denotes in D. rewrite <- D. etransitivity; [exact B6|].
    rewrite (map_ext_in (fun q => (seq_string q, map (nth_error (tokens (add_token_unchecked ts1 x))) (seq_tokens q)))
                        (fun q => (seq_string q, map (nth_error (tokens ts1)) (seq_tokens q)))); [reflexivity|].
    intros q Hin. f_equal. apply map_ext_in. intros j Hj. cbn. apply nth_error_app1.
    exact (visited_range _ _ _ _ V1 q j Hin Hj).
Qed.

Lemma Forall2_out {A B C} (P : A -> B -> Prop) (Q : C -> B -> Prop) (R : A -> C -> B -> Prop) la lb lc :
  Forall2 P la lb -> Forall2 Q lc lb -> (forall a c b, P a b -> Q c b -> R a c b) -> Forall2 (fun a c => exists b, R a c b) la lc.
Proof.
  intros H. revert lc. induction H as [|a b la lb Hab _ IH]; intros lc Hc K; inversion Hc; subst; constructor; eauto.
Qed.

Definition no_neighbours (encs : list (list piece)) : Prop := forall l i j r, ~ In (l ++ PTok i :: PTok j :: r) encs.

Lemma no_joins_alone ts samples pss s : tallied ts samples pss s -> pairs_tallied ts pss s -> usable ts ->
  (forall i j x k, ~ joins s i j x k) -> no_neighbours pss.
Proof.
  intros T P U H l i j r Hi.
  assert (E : add_token_bpe s = Ret None).
  { destruct (bpe_choice ts samples pss s T P U) as [(E & _)|[(i1 & j1 & x & k1 & _ & J & _)|(i1 & j1 & x & k1 & _ & J & _)]]; [exact E|exfalso; exact (H _ _ _ _ J)..]. }
  destruct (add_token_bpe_ok _ _ _ _ T P U) as [(_ & Hc)|(x & c & E' & _)]; [|rewrite E in E'; discriminate].
  apply In_nth_error in Hi as (k & Hk). destruct (Forall2_nth _ _ _ (ta_opt _ _ _ _ T) _ _ Hk) as (text & Htx & Hopt).
  destruct (pair_new _ _ _ _ _ _ Hopt) as (s1 & s2 & G1 & G2 & _).
  apply (Hc (s1 ++ s2) (sum (map (adj i j) pss))). exists i, j, s1, s2. split; [exact G1|]. split; [exact G2|]. split; [reflexivity|]. split; [reflexivity|].
  assert (H0 : 0 < adj i j (l ++ PTok i :: PTok j :: r)).
  { clear. induction l as [|x l IH]; cbn [app adj]; [rewrite !Nat.eqb_refl; cbn; lia|lia]. }
  apply nth_error_In in Hk. pose proof (sum_ge (adj i j) pss _ Hk). lia.
Qed.

Lemma same_neighbours a b ps qs : Forall2 (same_piece a b) ps qs -> forall l i j r, ps = l ++ PTok i :: PTok j :: r ->
  exists l' i' j' r', qs = l' ++ PTok i' :: PTok j' :: r'.
Proof.
  intros F l i j r ->. apply Forall2_app_inv_l in F as (l' & m & _ & F & ->).
  inversion F as [|? q ? m' F1 F2]; subst. inversion F2 as [|? q' ? m'' F3 F4]; subst.
  destruct F1 as (F1 & _), F3 as (F3 & _). destruct q as [i'|]; [|contradiction]. destruct q' as [j'|]; [|contradiction]. eauto.
Qed.

Lemma bytes_whole p sp ts samples encs : visited Bytes p sp ts -> ~ In [] samples -> Forall2 (optimal ts) encs samples -> no_neighbours encs ->
  forall x, In x samples -> In (Str x) (tokens ts).
Proof.
  intros V Hne Ho Hadj x Hx. pose proof Hx as Hx0. apply In_nth_error in Hx as (k & Hk).
  destruct (Forall2_nth_r _ _ _ Ho _ _ Hk) as (ps & Hps & (Hseg & _)).
  assert (Hq : sequences ts = []).
  { destruct (sequences ts) as [|q l] eqn:Eq; [reflexivity|]. exfalso.
    destruct (vi_seqs _ _ _ _ V (denotes ts q)) as (_ & []). rewrite Eq. left; reflexivity. }
  apply nth_error_In in Hps. clear -Hseg Hq Hps Hadj Hx0 Hne.
  assert (Hp : forall p x, piece_string ts p = Some x -> exists i, p = PTok i /\ nth_error (tokens ts) i = Some (Str x)).
  { intros [i|i] y Hy; cbn in Hy.
    - exists i. split; [reflexivity|]. destruct (nth_error (tokens ts) i) as [[z|]|]; congruence.
    - rewrite Hq in Hy. destruct i; discriminate. }
  destruct Hseg as [|p ps y r Hy Hseg]; [contradiction|]. destruct (Hp _ _ Hy) as (i & -> & Hi).
  destruct Hseg as [|p' ps y' r Hy' Hseg].
  - rewrite app_nil_r. eapply nth_error_In; exact Hi.
  - destruct (Hp _ _ Hy') as (j & -> & _). exfalso. exact (Hadj [] i j ps Hps).
Qed.

Lemma one_sample ts ts1 x i e ps u : usable ts -> seqs_in_range ts1 -> (forall q, In q (sequences ts1) -> seq_string q <> x) ->
  same_content ts (add_token_unchecked ts1 x) -> nth_error (tokens ts) i = Some (Str x) ->
  optimal ts e u -> ~ In (PTok i) e -> optimal ts1 ps u ->
  length (stream ts1 ps) = length (stream ts e) /\ exists ps', optimal ts ps' u /\ Forall2 (same_piece ts (add_token_unchecked ts1 x)) ps' ps.
Proof.
  intros U Hr Hq C Hi Oe Hn Op. destruct (same_pieces _ _ C e u (proj1 Oe)) as (e' & F).
  pose proof (same_optimal _ _ _ _ _ C F Oe) as Oe'.
  assert (Hn' : ~ In (PTok (ntokens ts1)) e').
  { intros Hin. apply in_split in Hin as (l & r & ->). apply Forall2_app_inv_mid in F as (l' & q & r' & -> & _ & (_ & Es & _)).
    apply Hn. apply in_app_iff. right. left. apply (piece_unique ts q (PTok i) x U); [|cbn; rewrite Hi; reflexivity].
    rewrite Es. cbn. rewrite nth_error_app2 by (unfold ntokens; lia). replace (ntokens ts1 - length (tokens ts1)) with 0 by (unfold ntokens; lia). reflexivity. }
  destruct (spared ts1 x Hq e' ps u Oe' Hn' Op) as (OT & EL). split; [rewrite EL; symmetry; apply (same_length _ _ e e' F)|].
  destruct (same_pieces _ _ (same_content_sym _ _ C) ps u (proj1 OT)) as (ps' & F').
  exists ps'. split; [eapply same_optimal; [apply same_content_sym; exact C|exact F'|exact OT]|].
  eapply Forall2_sym; [apply same_piece_sym|exact F'].
Qed.

(** If the data can be encoded in the fewest tokens without some multi-byte
    token of the result, then no two tokens have to follow each other at all: the
    data can be encoded in the fewest tokens without two neighbouring string
    tokens; in a bytes set every sample is itself a token. *)
Theorem C104_no_wasted_token : forall threads total (samples : list bstr) init order clock n p t pre rounds m s,
  1 <= threads -> ~ In [] samples -> shuffles order -> supported t n -> good_start n p t pre -> round_bound samples n <= rounds ->
  optimizing threads total samples init order clock n p t pre rounds m -> returned m s -> t <> BytesHuff ->
  forall i x encs, nth_error (tokens (st_token_set s)) i = Some (Str x) -> 1 < length x ->
  Forall2 (optimal (st_token_set s)) encs samples -> (forall e, In e encs -> ~ In (PTok i) e) ->
  (exists encs', Forall2 (optimal (st_token_set s)) encs' samples /\ forall l i j r, ~ In (l ++ PTok i :: PTok j :: r) encs') /\
  (t = Bytes -> forall y, In y samples -> In (Str y) (tokens (st_token_set s))).
Proof.
  intros threads total samples init order clock n p t pre rounds m s Ht Hne Ho Hs Hp Hr M R Hh i x encs Hi Hl He Hav.
  destruct (returned_parts _ _ _ _ _ _ _ _ _ _ _ _ _ Ht Ho Hs Hp Hr M R) as (sp & V & Es & Ea & St).
  assert (G : exists encs', Forall2 (optimal (st_token_set s)) encs' samples /\ no_neighbours encs').
  { destruct (C54_budget_used_up _ _ _ _ _ _ _ _ _ _ _ _ _ Ht Hne Ho Hs Hp Hr M R) as [Hn|(_ & _ & G & _)]; [|exact G].
    pose proof (nth_error_In _ _ Hi) as Hx.
    destruct (visited_remove _ _ _ _ _ V Hx Hl) as (i' & ts0 & F1 & F2 & V0 & N0 & L0).
    assert (Ei : i' = i).
    { apply C20_find_token in F1 as (F1 & _). destruct (vi_shaped _ _ _ _ V) as (ss & S).
      apply (proj1 (NoDup_nth_error _) (shaped_NoDup _ _ S)); [apply nth_error_Some; congruence|congruence]. }
    subst i'. destruct (ts_sort_total _ (visited_range _ _ _ _ V0)) as (ts1 & Hso).
    destruct (removed_content _ _ _ _ _ _ _ _ V Hi Hl F2 Hso) as (C & V1).
    destruct (proj2 (C01_tokenizer_exists_iff_usable ts1) (vi_usable _ _ _ _ V1)) as (tk & Htk).
    pose proof (sync_eq ts1 tk Htk (visited_range _ _ _ _ V1) samples init) as Es1.
    match type of Es1 with _ = Ret ?s' => set (s1 := s') in * end.
    destruct (sync_tallied ts1 samples init s1 Es1 (visited_range _ _ _ _ V1)) as (pss & T & P).
    assert (Hq : forall q, In q (sequences ts1) -> seq_string q <> x).
    { intros q Hq E. pose proof (visited_single _ _ _ _ V1 q Hq) as H1. rewrite E in H1. lia. }
    set (T1 := add_token_unchecked ts1 x) in *.
    assert (G : length (stream ts1 (concat pss)) = length (stream (st_token_set s) (concat encs)) /\
      exists pss', Forall2 (optimal (st_token_set s)) pss' samples /\ Forall2 (Forall2 (same_piece (st_token_set s) T1)) pss' pss).
    { pose proof (ta_opt _ _ _ _ T) as Op. clear -V V1 Hq C Hi He Hav Op. revert pss Op.
      induction He as [|e u encs samples' Hopt _ IH]; intros pss Op; inversion Op as [|ps u' pss0 samples0 Oh Otl]; subst.
      - split; [reflexivity|]. exists []. split; constructor.
      - destruct (IH ltac:(intros e' H'; apply Hav; right; exact H') _ Otl) as (I1 & pss' & I2 & I3).
        destruct (one_sample _ _ _ _ e ps u (vi_usable _ _ _ _ V) (visited_range _ _ _ _ V1) Hq C Hi Hopt (Hav e (or_introl eq_refl)) Oh) as (K1 & ps' & K2 & K3).
        split; [cbn [concat]; rewrite !stream_app, !app_length; lia|]. exists (ps' :: pss'). split; constructor; assumption. }
    destruct G as (EL & pss' & Op' & F).
    assert (Etot : total_tokens s1 = total_tokens s).
    { rewrite (ta_total _ _ _ _ T), EL.
      destruct (fresh_answered samples init t p sp (NoPairs (st_token_set s)) s V (proj2 (fresh_answer_iff _ _ _ _) Ea)) as (A & _). cbn [requested] in A.
      apply (total_unique (st_token_set s) samples); [exists encs; split; [exact He|reflexivity]|exact (an_total A)]. }
    assert (Hnj : forall i j y k, ~ joins s1 i j y k).
    { intros a b y k J. destruct (C104_token_earns_its_place _ _ _ _ _ _ _ _ _ _ _ _ _ Ht Ho Hs Hp Hr M R Hh Hn i x ts0 ts1 s1 Hi Hl F2 Hso Es1 a b y k J) as (L & _). lia. }
    pose proof (no_joins_alone _ _ _ _ T P (vi_usable _ _ _ _ V1) Hnj) as Hnn.
    exists pss'. split; [exact Op'|]. intros l a b r Hin. apply In_nth_error in Hin as (k & Hk).
    destruct (Forall2_nth _ _ _ F _ _ Hk) as (qs & Hqs & Fq).
    destruct (same_neighbours _ _ _ _ Fq l a b r eq_refl) as (l' & a' & b' & r' & ->). exact (Hnn _ _ _ _ (nth_error_In _ _ Hqs)). }
  split; [exact G|]. intros -> y Hy. destruct G as (es & G1 & G2). eapply bytes_whole; eassumption.
Qed.

(** In terms of the counts in the statistics. *)
Theorem C104_unused_token : forall threads total (samples : list bstr) init order clock n p t pre rounds m s,
  1 <= threads -> ~ In [] samples -> shuffles order -> supported t n -> good_start n p t pre -> round_bound samples n <= rounds ->
  optimizing threads total samples init order clock n p t pre rounds m -> returned m s -> t <> BytesHuff ->
  forall i x, nth_error (tokens (st_token_set s)) i = Some (Str x) -> 1 < length x -> nth i (token_counts s) 0 = 0 ->
  (exists encs, Forall2 (optimal (st_token_set s)) encs samples /\ forall l i j r, ~ In (l ++ PTok i :: PTok j :: r) encs) /\
  (t = Bytes -> forall y, In y samples -> In (Str y) (tokens (st_token_set s))).
Proof.
  intros threads total samples init order clock n p t pre rounds m s Ht Hne Ho Hs Hp Hr M R Hh i x Hi Hl Hc.
  destruct (returned_parts _ _ _ _ _ _ _ _ _ _ _ _ _ Ht Ho Hs Hp Hr M R) as (sp & V & Es & Ea & St).
  destruct (fresh_answered samples init t p sp (NoPairs (st_token_set s)) s V (proj2 (fresh_answer_iff _ _ _ _) Ea)) as (A & _).
  destruct (an_tallied A) as (pss & T). rewrite (ta_tok _ _ _ _ T) in Hc.
  eapply (C104_no_wasted_token _ _ _ _ _ _ _ _ _ _ _ _ _ Ht Hne Ho Hs Hp Hr M R Hh i x pss Hi Hl (ta_opt _ _ _ _ T)).
  intros e He Hin. apply (proj2 (count_occ_not_In Nat.eq_dec _ i) Hc). unfold stream. apply in_flat_map.
  exists (PTok i). split; [apply in_concat; eauto|left; reflexivity].
Qed.

(** ** Sizes never shrink (C52) *)
Theorem C52_result_not_smaller : forall threads total samples init order clock n p t pre rounds ts0 m s,
  1 <= threads -> shuffles order -> supported t n -> good_start n p t pre -> round_bound samples n <= rounds ->
  initial samples init n p t pre ts0 ->
  optimizing threads total samples init order clock n p t pre rounds m -> returned m s ->
  ntokens ts0 <= ntokens (st_token_set s) /\ Forall (fun a => ntokens ts0 <= ntokens a) (m_saved m).
Proof.
  intros threads total samples init order clock n p t pre rounds ts0 m s Ht Ho Hs Hp Hr H0 Hm R.
  destruct (okT_sound threads total samples init Ht _ _ _ (optimize_okT samples init order clock n p t pre rounds Ho Hs Hp Hr) m Hm) as ((_ & C) & Q).
  specialize (C ts0 H0). inversion C as [|x y C' Hx]; subst.
  destruct (Q s R) as (_ & ts3 & _ & ((Sn & Sl) & _) & K). destruct (K ts0 H0) as (_ & En). split.
  - unfold ends in En. destruct (Forall_inv En) as [<-|(Hd & _)]; lia.
  - eapply Forall_impl; [|exact Hx]. intros a (H & _). exact H.
Qed.

(** ** Cases *)

(** A bytes set with one string added. *)
Lemma one_added (x : bstr) : 1 < length x -> exists a, good_start 257 Raw Bytes (Some a) /\ ntokens a = 257.
Proof.
  intros Hx. destruct (visited_bytes Raw) as (V & B & L).
  assert (Nt : ntokens (new_bytes Raw) = 256) by (rewrite base_ntokens, B, L; reflexivity). clear B.
  revert V L Nt. generalize (new_bytes Raw). intros ts V L Nt.
  assert (Hq : sequences ts = []).
  { destruct (sequences ts) as [|q l] eqn:Eq; [reflexivity|]. exfalso.
    destruct (vi_seqs _ _ _ _ V (denotes ts q)) as (_ & []). rewrite Eq. left; reflexivity. }
  assert (Hno : ~ In x (strings ts)).
  { intros H. unfold strings in H. rewrite Hq, app_nil_r in H. apply in_flat_map in H as (tk & Hk & Hi).
    destruct tk as [y|]; [|destruct Hi]. destruct Hi as [-> |[]]. unfold n_long_tokens in L. apply length_zero_iff_nil in L.
    assert (H : In (Str x) (filter is_long (tokens ts))) by (apply filter_In; split; [exact Hk|unfold is_long; apply Nat.ltb_lt; exact Hx]).
    rewrite L in H. destruct H. }
  destruct (visited_add _ _ _ ts x V Hx Hno) as (V1 & N1 & _). exists (add_token_unchecked ts x).
  split; [|lia]. exists true. split; [exact V1|lia].
Qed.

Lemma full_bytes sp ts : visited Bytes Raw sp ts -> ntokens ts = 257 -> exists i x, nth_error (tokens ts) i = Some (Str x) /\ 1 < length x /\ n_long_tokens ts = 1.
Proof.
  intros V N. pose proof (base_ntokens ts) as B. pose proof (base_range _ _ _ _ V) as Rg. cbn in Rg.
  assert (L : n_long_tokens ts = 1) by lia. unfold n_long_tokens in L.
  destruct (filter is_long (tokens ts)) as [|[x|e] l] eqn:E; [discriminate| |].
  - assert (H : In (Str x) (filter is_long (tokens ts))) by (rewrite E; left; reflexivity). apply filter_In in H as (H & Hl).
    apply In_nth_error in H as (i & Hi). exists i, x. split; [exact Hi|]. split; [apply Nat.ltb_lt; exact Hl|]. unfold n_long_tokens. rewrite E. exact L.
  - assert (H : In (Ext e) (filter is_long (tokens ts))) by (rewrite E; left; reflexivity). apply filter_In in H as (_ & H). discriminate.
Qed.

(** A run with one string for the text "abab": it fills the set, and after
    removing the string there are pairs to join. *)
Example C104_hypotheses_met : exists m s i x ts0 ts1 s1 a b y k,
  optimizing 4 3 [[x61; x62; x61; x62]] None (fun _ l => rev l) (fun _ => true) 257 Raw Bytes None (round_bound [[x61; x62; x61; x62]] 257) m /\ returned m s /\
  ntokens (st_token_set s) = 257 /\ nth_error (tokens (st_token_set s)) i = Some (Str x) /\ 1 < length x /\
  remove_token (st_token_set s) i = Ret ts0 /\ ts_sort ts0 = Ret ts1 /\ tokenize_file_sync ts1 [[x61; x62; x61; x62]] None = Ret s1 /\ joins s1 a b y k.
Proof.
  assert (Hr : shuffles (fun _ l => rev l)) by (intros m l; symmetry; apply Permutation_rev).
  assert (Hn1 : ~ In [] [[x61; x62; x61; x62]]) by (cbn; intuition discriminate).
  assert (G : supported Bytes 257) by (split; [apply Nat.leb_le; reflexivity|exact I]).
  destruct (proj1 (C43_optimization_never_panics_partial 4 3 [[x61; x62; x61; x62]] None (fun _ l => rev l) (fun _ => true) 257 Raw Bytes None _ ltac:(lia) Hn1 Hr G I (le_n _))) as (m & s & M & R).
  destruct (returned_parts 4 3 _ _ _ _ 257 Raw Bytes None _ _ _ ltac:(lia) Hr G I (le_n _) M R) as (sp & V & _).
  assert (Hlong : forall ts, visited Bytes Raw sp ts -> In (Str [x61; x62; x61; x62]) (tokens ts) -> 256 < ntokens ts).
  { intros ts V0 Hin. pose proof (base_ntokens ts) as B. pose proof (base_range _ _ _ _ V0) as Rg. cbn in Rg.
    assert (1 <= n_long_tokens ts); [|lia]. unfold n_long_tokens.
    assert (H : In (Str [x61; x62; x61; x62]) (filter is_long (tokens ts))) by (apply filter_In; split; [exact Hin|reflexivity]).
    destruct (filter is_long (tokens ts)); [destruct H|cbn; lia]. }
  assert (N : ntokens (st_token_set s) = 257).
  { destruct (C54_budget_used_up 4 3 _ _ _ _ 257 Raw Bytes None _ _ _ ltac:(lia) Hn1 Hr G I (le_n _) M R) as [N|(_ & Hlt & _ & Hb & _)]; [exact N|].
    specialize (Hlong _ V (Hb eq_refl _ (or_introl eq_refl))). lia. }
  destruct (full_bytes sp _ V N) as (i & x & Hi & Hl & Ln).
  destruct (visited_remove _ _ _ _ _ V (nth_error_In _ _ Hi) Hl) as (i' & ts0 & F1 & F2 & V0 & N0 & L0).
  assert (Ei : i' = i).
  { apply C20_find_token in F1 as (F1 & _). destruct (vi_shaped _ _ _ _ V) as (ss & S).
    apply (proj1 (NoDup_nth_error _) (shaped_NoDup _ _ S)); [apply nth_error_Some; congruence|congruence]. }
  subst i'. destruct (ts_sort_total _ (visited_range _ _ _ _ V0)) as (ts1 & Hso).
  destruct (visited_sort _ _ _ _ _ V0 Hso) as (V1 & N1 & L1).
  destruct (proj2 (C01_tokenizer_exists_iff_usable ts1) (vi_usable _ _ _ _ V1)) as (tk & Htk).
  pose proof (sync_eq ts1 tk Htk (visited_range _ _ _ _ V1) [[x61; x62; x61; x62]] None) as Es1.
  match type of Es1 with _ = Ret ?s' => set (s1 := s') in * end.
  destruct (sync_tallied ts1 _ None s1 Es1 (visited_range _ _ _ _ V1)) as (pss & T & P).
  assert (J : exists a b y k, joins s1 a b y k).
  { destruct (bpe_choice ts1 _ pss s1 T P (vi_usable _ _ _ _ V1)) as [(_ & Hn)|[(i1 & j1 & z & k1 & _ & J & _)|(i1 & j1 & z & k1 & _ & J & _)]]; eauto.
    exfalso. pose proof (no_joins_alone _ _ _ _ T P (vi_usable _ _ _ _ V1) Hn) as Hnn.
    pose proof (bytes_whole _ _ _ _ _ V1 Hn1 (ta_opt _ _ _ _ T) Hnn _ (or_introl eq_refl)) as Hin. specialize (Hlong _ V1 Hin). lia. }
  destruct J as (a & b & y & k & J). exists m, s, i, x, ts0, ts1, s1, a, b, y, k.
  split; [exact M|]. split; [exact R|]. split; [exact N|]. split; [exact Hi|]. split; [exact Hl|]. split; [exact F2|]. split; [exact Hso|]. split; [exact Es1|exact J].
Qed.

(** A run from a set with a string, for the text "a": the string is not used. *)
Example C104_unused_met : exists pre m s i x, good_start 257 Raw Bytes (Some pre) /\
  optimizing 4 3 [[x61]] None (fun _ l => rev l) (fun _ => true) 257 Raw Bytes (Some pre) (round_bound [[x61]] 257) m /\ returned m s /\
  nth_error (tokens (st_token_set s)) i = Some (Str x) /\ 1 < length x /\ nth i (token_counts s) 0 = 0.
Proof.
  destruct (one_added [x63; x64]) as (pre & Gp & Np); [cbn; lia|].
  assert (Hr : shuffles (fun _ l => rev l)) by (intros m l; symmetry; apply Permutation_rev).
  assert (Hn1 : ~ In [] [[x61]]) by (cbn; intuition discriminate).
  assert (G : supported Bytes 257) by (split; [apply Nat.leb_le; reflexivity|exact I]).
  destruct (proj1 (C43_optimization_never_panics_partial 4 3 [[x61]] None (fun _ l => rev l) (fun _ => true) 257 Raw Bytes (Some pre) _ ltac:(lia) Hn1 Hr G Gp (le_n _))) as (m & s & M & R).
  destruct (returned_parts 4 3 _ _ _ _ 257 Raw Bytes (Some pre) _ _ _ ltac:(lia) Hr G Gp (le_n _) M R) as (sp & V & _ & Ea & _).
  destruct (C52_result_not_smaller 4 3 _ _ _ _ 257 Raw Bytes (Some pre) _ pre m s ltac:(lia) Hr G Gp (le_n _) eq_refl M R) as (N & _).
  assert (N2 : ntokens (st_token_set s) = 257).
  { destruct (C54_budget_used_up 4 3 _ _ _ _ 257 Raw Bytes (Some pre) _ _ _ ltac:(lia) Hn1 Hr G Gp (le_n _) M R) as [N2|(_ & Hlt & _)]; [exact N2|lia]. }
  destruct (full_bytes sp _ V N2) as (i & x & Hi & Hl & _).
  exists pre, m, s, i, x. split; [exact Gp|]. split; [exact M|]. split; [exact R|]. split; [exact Hi|]. split; [exact Hl|].
  destruct (fresh_answered [[x61]] None Bytes Raw sp (NoPairs (st_token_set s)) s V (proj2 (fresh_answer_iff _ _ _ _) Ea)) as (A & _).
  destruct (an_tallied A) as (pss & T). rewrite (ta_tok _ _ _ _ T). apply count_occ_not_In. intros Hin.
  apply in_flat_map in Hin as (q & Hq & Hiq). apply in_concat in Hq as (e & He & Hq).
  destruct q as [j|j].
  - destruct Hiq as [->|[]]. pose proof (ta_opt _ _ _ _ T) as Op. inversion Op as [|e0 u es us (Se & _) Otl]; subst. inversion Otl; subst.
    destruct He as [<-|[]]. apply in_split in Hq as (l & r & ->). apply segments_app_inv in Se as (u & v & Eu & _ & Sv).
    inversion Sv as [|? ? z w Hz _]; subst. cbn in Hz. rewrite Hi in Hz. injection Hz as ->.
    apply (f_equal (@length _)) in Eu. rewrite !app_length in Eu. cbn in Eu. lia.
  - cbn in Hiq. destruct (nth_error (sequences (st_token_set s)) j) as [q|] eqn:Eq; [|destruct Hiq]. exfalso.
    destruct (vi_seqs _ _ _ _ V (denotes (st_token_set s) q)) as (_ & []). apply in_map. eapply nth_error_In; exact Eq.
Qed.
