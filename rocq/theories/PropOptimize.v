(** * Properties C39-C45, C47, C52: the search for a good token set. *)
From Coq Require Import ZArith.
From Verif Require Import Base BaseLemmas TokenSetModel TokenizerModel TokSpec SortLemmas TokenizerProof1 TokenizerProof2
  TokenizerTheory TokenSetProof TokenSetProof2 PropTokenizer PropTokenSet StatsAlgebra BatchModel PropBatch
  PropJson Shaped CacheModel PropCache OptBytesModel OptBytesProof OptBytesProof2
  OptBytesProof3 OptBytesProof4 PropOptBytes OptimizeModel OptimizeProof1 OptimizeProof2 OptimizeProof3 OptimizeProof4
  OptimizeProof5 OptimizeProof6 OptimizeProof7 OptimizeProof8.

(** ** Specification *)

(** The least number of tokens for all samples. *)
Definition min_total (ts : tokenset) (samples : list bstr) (N : nat) : Prop :=
  exists ns, Forall2 (min_tokens ts) samples ns /\ N = sum ns.

(** Target sizes the search can handle. *)
Definition smallest_target (t : token_type) : nat :=
  match t with Bits1 => 2 | Bits2 => 4 | Bits4 => 16 | Bytes => 256 | BytesHuff => 3 end.
Definition largest_target (t : token_type) : option nat :=
  match t with Bits1 => Some 258 | Bits2 => Some 260 | Bits4 => Some 272 | Bytes | BytesHuff => None end.
Definition supported (t : token_type) (n : nat) : Prop :=
  smallest_target t <= n /\ match largest_target t with Some m => n <= m | None => True end.

(** An unstable sort only reorders. *)
Definition shuffles (order : smap nat -> list bstr -> list bstr) : Prop :=
  forall m l, Permutation (order m l) l.

(** The states an optimization reaches: token sets saved so far, the cache, and
    what is left to do. *)
Definition optimizing (threads : nat) (total : N) (samples : list bstr) (init : option nat)
  order clock (n : nat) (p : processing) (t : token_type) (pre : option tokenset) (rounds : nat) (m : machine stats) : Prop :=
  steps threads total samples init (mkMachine [] [] (optimize_tokenset order clock rounds n p t pre)) m.

Definition returned {A} (m : machine A) (a : A) : Prop := m_prog m = PDone (Ret a).
Definition panicked {A} (m : machine A) : Prop := m_prog m = PDone Panic.
Definition out_of_rounds {A} (m : machine A) : Prop := m_prog m = PDone OutOfFuel.

(** Token sets in the budget, of the right kind and accepted by the tokenizer. *)
Definition good_result (n : nat) (p : processing) (t : token_type) (ts : tokenset) : Prop :=
  (exists tk, tokenizer_new ts = Ret tk) /\ (exists ss, shaped ts ss) /\
  ntokens ts <= n /\ ts_type ts = t /\ ts_processing ts = p.

(** The set an optimization from scratch starts with, for bits and bytes. *)
Definition first_set (p : processing) (t : token_type) : option tokenset :=
  match t with
  | Bits1 => Some (new_bits1 p true) | Bits2 => Some (new_bits2 p true) | Bits4 => Some (new_bits4 p true)
  | Bytes => Some (new_bytes p) | BytesHuff => None
  end.

(** A pretrained set the program itself could have produced, within the budget. *)
Definition good_start (n : nat) (p : processing) (t : token_type) (pre : option tokenset) : Prop :=
  match pre with
  | None => True
  | Some ts => exists sp, visited t p sp ts /\ ntokens ts <= n
  end.
Definition start (p : processing) (t : token_type) (pre : option tokenset) : option tokenset :=
  match pre with Some ts => Some ts | None => first_set p t end.

(** A bound on the number of rounds. *)
Definition round_bound (samples : list bstr) (n : nat) : nat :=
  let b := 258 * length (concat samples) in S (n * S b + b).

(** ** Helpers *)
Lemma good_start_flag n p t ts : good_start n p t (Some ts) ->
  exists sp, visited t p sp ts /\ (t = BytesHuff -> sp = true) /\ ntokens ts <= n.
Proof.
  intros (sp & V & H). exists (match t with BytesHuff => true | _ => sp end).
  split; [|split; [intros ->; reflexivity|exact H]]. destruct V as [V1 V2 V3 V4 V5 V6 V7].
  split; try assumption. intros Ht. rewrite (V5 Ht). destruct t; congruence.
Qed.
Lemma total_for_min ts samples N : total_for ts samples N <-> min_total ts samples N.
Proof.
  split.
  - intros (pss & H & ->). exists (map (fun ps => length (stream ts ps)) pss). split.
    + induction H as [|ps x pss samples Ho _ IH]; constructor; [exists ps; auto|exact IH].
    + clear H. induction pss as [|ps pss IH]; [reflexivity|]. cbn [concat map]. rewrite stream_app, app_length.
      unfold sum in *; cbn [fold_right]. f_equal. exact IH.
  - intros (ns & H & ->). induction H as [|x n samples ns (ps & Ho & ->) _ (pss & H & E)].
    + exists []. split; [constructor|reflexivity].
    + exists (ps :: pss). split; [constructor; assumption|]. cbn [concat]. rewrite stream_app, app_length.
      unfold sum in *; cbn [fold_right]. f_equal. exact E.
Qed.

Lemma supported_bounds t n : supported t n -> lo t <= n /\ (is_bits t -> n <= hi t).
Proof.
  intros (H1 & H2). destruct t; cbn in *; (split; [assumption|]); intros [E|[E|E]]; try discriminate; exact H2.
Qed.

Lemma fits_good t p sp n ts : fits t p sp n ts -> good_result n p t ts.
Proof.
  intros (V & H). split; [apply C01_tokenizer_exists_iff_usable, (vi_usable _ _ _ _ V)|].
  split; [apply (vi_shaped _ _ _ _ V)|]. split; [exact H|]. split; [apply (vi_type _ _ _ _ V)|apply (vi_proc _ _ _ _ V)].
Qed.

Lemma visited_bits t p sp ts0 : is_bits t -> bits_fresh t p sp = Some ts0 ->
  visited t p sp ts0 /\ base_size ts0 = lo t /\ n_long_tokens ts0 = 0.
Proof.
  intros Hb Hf. destruct (visited_bits_with t p sp ts0 [] [] Hb Hf) as (V & B & L).
  - constructor.
  - constructor.
  - intros x [].
  - cbn in V, B, L. rewrite Nat.add_0_r in B. auto.
Qed.

Lemma shaped_new_bytes p : shaped (new_bytes p) (singles all_bytes).
Proof.
  rewrite new_bytes_eq. split; cbn [bytes_set n_ext_tokens tokens ts_type sequences].
  - rewrite <- map_single_all_bytes, map_map. reflexivity.
  - reflexivity.
  - intros H. apply in_map_iff in H as (b & E & _). discriminate.
  - apply NoDup_single_bytes.
  - intros q t [].
  - intros q [].
Qed.

Lemma visited_bytes p : visited Bytes p true (new_bytes p) /\ base_size (new_bytes p) = 256 /\ n_long_tokens (new_bytes p) = 0.
Proof.
  pose proof (shaped_new_bytes p) as S. pose proof (usable_bytes_set p) as U. rewrite <- new_bytes_eq in U.
  assert (E : sequences (new_bytes p) = [] /\ ts_type (new_bytes p) = Bytes /\ ts_processing (new_bytes p) = p /\ split_paragraphs (new_bytes p) = true)
    by (rewrite new_bytes_eq; repeat split).
  revert S U E. generalize (new_bytes p). intros ts S U (E1 & E2 & E3 & E4).
  assert (V : visited Bytes p true ts).
  { split; eauto.
    - intros d Hd. rewrite E1 in Hd. destruct Hd.
    - discriminate. }
  split; [exact V|]. pose proof (base_range _ _ _ _ V) as R. cbn in R. split; [lia|].
  rewrite (shaped_long _ _ S), longs_singles. reflexivity.
Qed.

Lemma first_visited p t ts : first_set p t = Some ts -> visited t p true ts /\ ntokens ts = lo t /\ n_long_tokens ts = 0.
Proof.
  intros H. assert (G : visited t p true ts /\ base_size ts = lo t /\ n_long_tokens ts = 0).
  { destruct t; cbn [first_set] in H; try discriminate; apply (f_equal (fun o => match o with Some x => x | None => ts end)) in H; cbn beta iota in H.
    - apply visited_bits; [left; reflexivity|cbn [bits_fresh]; f_equal; exact H].
    - apply visited_bits; [right; left; reflexivity|cbn [bits_fresh]; f_equal; exact H].
    - apply visited_bits; [right; right; reflexivity|cbn [bits_fresh]; f_equal; exact H].
    - rewrite <- H. apply visited_bytes. }
  destruct G as (V & B & L). split; [exact V|]. split; [rewrite (base_ntokens ts); lia|exact L].
Qed.

(** What is claimed of a result and of saved sets *)
Definition set_claim samples n p t pre (ts : tokenset) : Prop :=
  good_result n p t ts /\ good_start n p t (Some ts) /\
  (t <> BytesHuff -> forall ts0 N0 N, start p t pre = Some ts0 -> min_total ts0 samples N0 -> min_total ts samples N -> N <= N0).
Definition stats_claim samples n p t pre (s : stats) : Prop :=
  set_claim samples n p t pre (st_token_set s) /\ min_total (st_token_set s) samples (total_tokens s).

Lemma from_ok samples init order clock n p t pre sp ts0 fuel : shuffles order -> supported t n ->
  (t = BytesHuff -> sp = true) -> fits t p sp n ts0 ->
  (t <> BytesHuff -> forall ts1, start p t pre = Some ts1 -> ts1 = ts0) ->
  round_bound samples n <= fuel ->
  ok samples init (optimize_impl (optimizer_for t) order clock fuel ts0 n) (set_claim samples n p t pre) (stats_claim samples n p t pre).
Proof.
  intros Hord Hsup Hsp F Hst Hf. destruct (supported_bounds _ _ Hsup) as (_ & Hhi).
  assert (Hin : forall m l x, In x (order m l) -> In x l) by (intros m l x; apply Permutation_in, Hord).
  assert (G : forall ts, reached samples t p sp n ts0 ts -> set_claim samples n p t pre ts).
  { intros ts (F1 & M). split; [eapply fits_good; exact F1|]. split; [exists sp; split; apply F1|]. intros Ht ts1 N0 N E H0 H1.
    rewrite (Hst Ht ts1 E) in H0. apply (M Ht); apply total_for_min; assumption. }
  eapply ok_mono; [exact G| |apply (impl_ok samples init t p sp order clock n Hsp Hin Hhi ts0 fuel F Hf)].
  intros s (R & T & _). split; [apply G; exact R|]. apply total_for_min; exact T.
Qed.

Lemma optimize_ok samples init order clock n p t pre fuel : shuffles order -> supported t n -> good_start n p t pre ->
  round_bound samples n <= fuel ->
  ok samples init (optimize_tokenset order clock fuel n p t pre) (set_claim samples n p t pre) (stats_claim samples n p t pre).
Proof.
  intros Hord Hsup Hpre Hf. destruct (supported_bounds _ _ Hsup) as (Hlo & _). unfold optimize_tokenset.
  destruct pre as [ts|].
  - destruct (good_start_flag _ _ _ _ Hpre) as (sp & V & Hsp & Hn).
    apply (from_ok samples init order clock n p t (Some ts) sp ts fuel Hord Hsup Hsp); [split; assumption| |exact Hf]. intros _ ts1 E. cbn in E. congruence.
  - assert (G : forall ts, first_set p t = Some ts ->
      ok samples init (optimize_impl (optimizer_for t) order clock fuel ts n) (set_claim samples n p t None) (stats_claim samples n p t None)).
    { intros ts E. destruct (first_visited p t ts E) as (V & En & _).
      apply (from_ok samples init order clock n p t None true ts fuel Hord Hsup); [reflexivity|split; [exact V|lia]| |exact Hf].
      intros _ ts1 E1. cbn [start] in E1. congruence. }
    destruct t; [apply G; reflexivity..|]. unfold initial_set.
    destruct (visited_bytes p) as (V & _ & L). revert V L. generalize (new_bytes p). intros tb V L.
    apply ok_bind, ok_stats; [apply (visited_askable Bytes p true); exact V|]. intros s Fs.
    destruct (fresh_answered samples init Bytes p true (NoPairs tb) s V Fs) as (A & _). cbn [requested] in A.
    pose proof (an_visited A) as V1.
    destruct (huff_bytes_visited p true s n eq_refl (visited_single _ _ _ _ V1) (vi_usable _ _ _ _ V1) (vi_proc _ _ _ _ V1) Hlo) as (ts & E & V2 & B2 & L2).
    exists ts. split; [exact E|].
    apply (from_ok samples init order clock n p BytesHuff None true ts fuel Hord Hsup); [reflexivity| |congruence|exact Hf].
    split; [exact V2|]. rewrite (base_ntokens ts), B2, L2, (an_long A), L. lia.
Qed.

(** ** C39: a BPE step never adds an existing token *)
Theorem C39_bpe_adds_a_new_token : forall ts tk samples init s ts' c,
  tokenizer_new ts = Ret tk -> seqs_in_range ts -> tokenize_file_sync ts samples init = Ret s ->
  add_token_bpe s = Ret (Some (ts', c)) ->
  exists x, tokens ts' = tokens ts ++ [Str x] /\ ~ In (Str x) (tokens ts) /\
    (* it joins two tokens that follow each other in a shortest encoding *)
    (exists a b l r i j text, In (Str a) (tokens ts) /\ In (Str b) (tokens ts) /\ x = a ++ b /\
       piece_string ts (PTok i) = Some a /\ piece_string ts (PTok j) = Some b /\
       In text samples /\ optimal ts (l ++ PTok i :: PTok j :: r) text) /\
    (* the set stays accepted *)
    (exists tk', tokenizer_new ts' = Ret tk') /\
    (* sequences of one byte, as in all sets the program builds, are kept *)
    ((forall q, In q (sequences ts) -> length (seq_string q) = 1) ->
       ~ In x (strings ts) /\ sequences ts' = sequences ts).
Proof.
  intros ts tk samples init s ts' c Htk Hr Hs Hb.
  assert (Hu : usable ts) by (apply C01_tokenizer_exists_iff_usable; eauto).
  destruct (sync_tallied ts samples init s Hs Hr) as (pss & T & P).
  destruct (add_token_bpe_ok _ _ _ _ T P Hu) as [(E & _)|(x & c' & E & (k & Hk) & _)]; rewrite E in Hb; [discriminate|].
  injection Hb as <- <-. destruct (candidate_new _ _ _ _ T Hu x k Hk) as (Hl & Hn & _).
  exists x. split; [reflexivity|]. split; [exact Hn|]. split; [|split].
  - destruct Hk as (i & j & a & b & E1 & E2 & -> & -> & Hp).
    apply sum_pos_in in Hp as (m & Hm & Hp). apply in_map_iff in Hm as (ps & <- & Hps).
    destruct (adj_pos _ _ _ Hp) as (l & r & ->).
    apply In_nth_error in Hps as (h & Hh). destruct (Forall2_nth _ _ _ (ta_opt _ _ _ _ T) _ _ Hh) as (text & Ht & Ho).
    exists a, b, l, r, i, j, text. split; [eapply nth_error_In; exact E1|]. split; [eapply nth_error_In; exact E2|]. split; [reflexivity|].
    split; [cbn; rewrite E1; reflexivity|]. split; [cbn; rewrite E2; reflexivity|]. split; [eapply nth_error_In; exact Ht|exact Ho].
  - apply C01_tokenizer_exists_iff_usable. apply usable_add; [exact Hu|intros ->; cbn in Hl; lia|].
    rewrite in_str_tokens. exact Hn.
  - intros H1. assert (Hq : forall q, In q (sequences ts) -> seq_string q <> x).
    { intros q Hq E0. specialize (H1 q Hq). rewrite E0 in H1. lia. }
    split.
    + unfold strings. fold (str_tokens ts). rewrite in_app_iff, in_str_tokens, in_map_iff. intros [H|(q & E0 & H)]; [contradiction|eapply Hq; eauto].
    + cbn [add_token_unchecked sequences]. apply filter_id. intros q H. apply negb_true_iff, bstr_eqb_neq. auto.
Qed.

(** ** C40: the validity check *)
Theorem C40_paragraph_rule : forall s, 2 <= length s ->
  exists v, is_valid_token s = Ret v /\
  (v = true <-> ~ exists u c w r, s = u ++ [x0a; x0a] ++ w ++ c :: r /\ c <> x0a).
Proof.
  assert (G : forall s, breaks s <-> exists u c w r, s = u ++ [x0a; x0a] ++ w ++ c :: r /\ c <> x0a).
  { intros s. split.
    - intros (u & c & r & -> & Hc). exists u, c, [], r. auto.
    - intros (u & c & w & r & -> & Hc). revert u. induction w as [|b w IH]; intros u.
      + exists u, c, r. auto.
      + destruct (byte_eq_dec b x0a) as [->|Hb].
        * specialize (IH (u ++ [x0a])). rewrite <- app_assoc in IH. exact IH.
        * exists u, b, (w ++ c :: r). auto. }
  intros s Hl. destruct (is_valid_spec s Hl) as (v & E & Hv). exists v. split; [exact E|].
  rewrite <- G, <- Hv. destruct v; split; try congruence; try discriminate.
Qed.

(** Shorter strings make it panic; the program never asks about those. *)
Theorem C40_short_strings_panic : forall s, length s < 2 -> is_valid_token s = Panic.
Proof. exact is_valid_short. Qed.

Example C40_example : is_valid_token [x61; x0a; x0a; x0a] = Ret true /\ is_valid_token [x0a; x0a; x0a; x61] = Ret false /\
  is_valid_token [x0a; x61; x0a; x61] = Ret true.
Proof. repeat split. Qed.

(** ** C41: BPE and the paragraph rule *)

(** If some pair gives a string keeping the rule, the proposed string keeps it,
    and it is one of the most frequent ones of those. *)
Theorem C41_bpe_keeps_the_rule_partial : forall ts tk samples init s,
  tokenizer_new ts = Ret tk -> seqs_in_range ts -> tokenize_file_sync ts samples init = Ret s ->
  exists pss, Forall2 (optimal ts) pss samples /\
  forall y k, candidate ts pss y k -> is_valid_token y = Ret true ->
  exists x c ts', add_token_bpe s = Ret (Some (ts', c)) /\ tokens ts' = tokens ts ++ [Str x] /\
    is_valid_token x = Ret true /\ candidate ts pss x c /\ k <= c.
Proof.
  intros ts tk samples init s Htk Hr Hs.
  assert (Hu : usable ts) by (apply C01_tokenizer_exists_iff_usable; eauto).
  destruct (sync_tallied ts samples init s Hs Hr) as (pss & T & P). exists pss. split; [apply (ta_opt _ _ _ _ T)|].
  intros y k Hy Vy. destruct (candidate_new _ _ _ _ T Hu y k Hy) as (Hly & _).
  assert (By : ~ breaks y).
  { destruct (is_valid_spec y Hly) as (v & Ev & Hv). rewrite Vy in Ev. injection Ev as <-. intros B. apply Hv in B. discriminate. }
  destruct (add_token_bpe_ok _ _ _ _ T P Hu) as [(_ & E)|(x & c & E & (k' & Hk) & [(B & Hc & Hm)|(_ & _ & B)])].
  - exfalso. eapply E; exact Hy.
  - exists x, c, (add_token_unchecked ts x). split; [exact E|]. split; [reflexivity|].
    destruct (candidate_new _ _ _ _ T Hu x k' Hk) as (Hlx & _). destruct (is_valid_spec x Hlx) as (v & Ev & Hv).
    split; [rewrite Ev; destruct v; [reflexivity|exfalso; apply B, Hv; reflexivity]|]. split; [exact Hc|]. eapply Hm; eauto.
  - exfalso. apply By. eapply B; exact Hy.
Qed.

(** Texts of two tokens have one candidate: the whole text. *)
Lemma two_token_text ts s1 s2 : usable ts -> seqs_nonempty ts -> (forall q, In q (sequences ts) -> 1 < length (seq_tokens q)) ->
  In (Str s1) (tokens ts) -> In (Str s2) (tokens ts) -> s1 <> [] -> s2 <> [] -> ~ In (s1 ++ s2) (strings ts) ->
  forall ps, optimal ts ps (s1 ++ s2) -> exists i j a b, ps = [PTok i; PTok j] /\
    nth_error (tokens ts) i = Some (Str a) /\ nth_error (tokens ts) j = Some (Str b) /\ a ++ b = s1 ++ s2.
Proof.
  intros Hu Hne Hlong H1 H2 N1 N2 Hn ps (Hs & Ho).
  apply In_nth_error in H1 as (i1 & H1). apply In_nth_error in H2 as (i2 & H2).
  assert (Hq : segments ts [PTok i1; PTok i2] (s1 ++ s2)).
  { constructor; [cbn; rewrite H1; reflexivity|]. rewrite <- (app_nil_r s2). constructor; [cbn; rewrite H2; reflexivity|constructor]. }
  specialize (Ho _ Hq). cbn in Ho.
  assert (Hst : forall p x, piece_string ts p = Some x -> In x (strings ts)).
  { intros p x Hp. unfold strings. apply in_app_iff. destruct p as [i|i]; cbn in Hp.
    - left. destruct (nth_error (tokens ts) i) as [[y|]|] eqn:E; try discriminate. injection Hp as ->.
      apply in_flat_map. exists (Str x). split; [eapply nth_error_In; exact E|left; reflexivity].
    - right. destruct (nth_error (sequences ts) i) as [q|] eqn:E; [|discriminate]. injection Hp as <-.
      apply in_map. eapply nth_error_In; exact E. }
  remember (s1 ++ s2) as text eqn:Et. destruct Hs as [|p ps x r Hp Hs].
  { exfalso. destruct s1; [congruence|discriminate]. }
  pose proof (piece_tokens_pos ts p x Hne Hp) as Lp.
  unfold stream in Ho. cbn [flat_map] in Ho. rewrite app_length in Ho. fold (stream ts ps) in Ho.
  destruct Hs as [|p2 ps x2 r2 Hp2 Hs].
  { exfalso. apply Hn. rewrite app_nil_r in *. eapply Hst; exact Hp. }
  pose proof (piece_tokens_pos ts p2 x2 Hne Hp2) as Lp2.
  unfold stream in Ho. cbn [flat_map] in Ho. rewrite app_length in Ho. fold (stream ts ps) in Ho.
  destruct Hs as [|p3 ps x3 r3 Hp3 Hs].
  2:{ exfalso. pose proof (piece_tokens_pos ts p3 x3 Hne Hp3). unfold stream in Ho. cbn [flat_map] in Ho. rewrite app_length in Ho. lia. }
  assert (G : forall p x, piece_string ts p = Some x -> length (piece_tokens ts p) <= 1 -> exists i, p = PTok i /\ nth_error (tokens ts) i = Some (Str x)).
  { intros [i|i] y Hy Hl; cbn in Hy, Hl.
    - exists i. split; [reflexivity|]. destruct (nth_error (tokens ts) i) as [[z|]|]; try discriminate. congruence.
    - exfalso. destruct (nth_error (sequences ts) i) as [q|] eqn:E; [|discriminate]. specialize (Hlong q (nth_error_In _ _ E)). lia. }
  destruct (G p x Hp) as (i & -> & Ei); [lia|]. destruct (G p2 x2 Hp2) as (j & -> & Ej); [lia|].
  exists i, j, x, x2. rewrite app_nil_r. auto.
Qed.

(** A set with the token "\n\n" and the data "\n\na": the only pair breaks the
    rule and is proposed nevertheless. *)
Theorem C41_bpe_keeps_the_rule_refuted : exists ts tk samples init s ts' c,
  tokenizer_new ts = Ret tk /\ seqs_in_range ts /\ tokenize_file_sync ts samples init = Ret s /\
  add_token_bpe s = Ret (Some (ts', c)) /\ tokens ts' = tokens ts ++ [Str [x0a; x0a; x61]] /\
  is_valid_token [x0a; x0a; x61] = Ret false.
Proof.
  destruct (visited_bytes Raw) as (V0 & _ & L0).
  assert (Hb : forall b, In (Str [b]) (tokens (new_bytes Raw))).
  { intros b. apply in_str_tokens. rewrite (str_tokens_shaped _ _ (sh_tokens _ _ (shaped_new_bytes Raw))).
    unfold singles. apply in_map_iff. exists b. split; [reflexivity|apply in_all_bytes]. }
  assert (Hs0 : forall x, In x (strings (new_bytes Raw)) -> length x = 1).
  { intros x Hx. rewrite (strings_shaped _ _ (shaped_new_bytes Raw)) in Hx. apply in_app_iff in Hx as [Hx|Hx].
    - apply in_map_iff in Hx as (b & <- & _). reflexivity.
    - apply in_map_iff in Hx as (q & <- & Hq). apply (visited_single _ _ _ _ V0 q Hq). }
  revert V0 Hb Hs0. generalize (new_bytes Raw). clear L0. intros ts0 V0 Hb Hs0.
  destruct (visited_add _ _ _ _ [x0a; x0a] V0) as (V & _).
  { cbn; lia. }
  { intros H. apply Hs0 in H. discriminate. }
  set (ts := add_token_unchecked ts0 [x0a; x0a]) in *.
  assert (Hnn : In (Str [x0a; x0a]) (tokens ts)) by (apply in_app_iff; right; left; reflexivity).
  assert (Ha : In (Str [x61]) (tokens ts)) by (apply in_app_iff; left; apply Hb).
  assert (Hw : ~ In ([x0a; x0a] ++ [x61]) (strings ts)).
  { intros H. apply in_strings_add in H as [H|H]; [apply Hs0 in H|]; discriminate. }
  clearbody ts. clear ts0 V0 Hb Hs0.
  pose proof (vi_usable _ _ _ _ V) as Hu. destruct (vi_shaped _ _ _ _ V) as (ss & S).
  destruct (proj2 (C01_tokenizer_exists_iff_usable ts) Hu) as (tk & Htk).
  pose proof (visited_range _ _ _ _ V) as Hr.
  assert (Es : exists s, tokenize_file_sync ts [[x0a; x0a; x61]] None = Ret s).
  { eexists. apply (sync_eq ts tk Htk Hr). }
  destruct Es as (s & Es). destruct (sync_tallied ts _ None s Es Hr) as (pss & T & P).
  pose proof (ta_opt _ _ _ _ T) as Ho. inversion Ho as [|ps x l l' Hps Hl]; subst. inversion Hl; subst.
  destruct (two_token_text ts [x0a; x0a] [x61] Hu (visited_nonempty _ _ _ _ V) (sh_long _ _ S) Hnn Ha) with (ps := ps) as (i & j & a & b & -> & Ei & Ej & Eab);
    [discriminate|discriminate|exact Hw|exact Hps|].
  assert (Hc : forall y k, candidate ts [[PTok i; PTok j]] y k -> y = [x0a; x0a; x61]).
  { intros y k (i' & j' & a' & b' & E1 & E2 & -> & -> & Hk). cbn in Hk.
    destruct (Nat.eqb_spec i i') as [<-|]; [|cbn in Hk; lia]. destruct (Nat.eqb_spec j j') as [<-|]; [|cbn in Hk; lia].
    rewrite Ei in E1. rewrite Ej in E2. injection E1 as <-. injection E2 as <-. exact Eab. }
  destruct (add_token_bpe_ok _ _ _ _ T P Hu) as [(_ & E)|(x & c & E & (k & Hk) & _)].
  - exfalso. apply (E (a ++ b) 1). exists i, j, a, b. split; [exact Ei|]. split; [exact Ej|]. split; [reflexivity|].
    cbn. rewrite !Nat.eqb_refl. cbn. split; [reflexivity|lia].
  - rewrite (Hc x k Hk) in E. exists ts, tk, [[x0a; x0a; x61]], None, s, (add_token_unchecked ts [x0a; x0a; x61]), c.
    split; [exact Htk|]. split; [exact Hr|]. split; [exact Es|]. split; [exact E|]. split; reflexivity.
Qed.

(** ** C42: termination *)

(** [rounds] limits the number of rounds of the model's loop; the theorem says
    that no execution ever reaches the limit, once it is at least [round_bound],
    and that no execution of the model is infinite. *)
Theorem C42_optimization_terminates : forall threads total samples init order clock n p t pre rounds,
  1 <= threads -> ~ In [] samples -> shuffles order -> supported t n -> good_start n p t pre ->
  round_bound samples n <= rounds ->
  (forall m, optimizing threads total samples init order clock n p t pre rounds m -> ~ out_of_rounds m) /\
  (forall m : machine stats, Acc (fun m2 m1 => step threads total samples init m1 m2) m).
Proof.
  intros threads total samples init order clock n p t pre rounds Ht Hne Ho Hs Hp Hr. split; [|intros m; apply step_wf].
  intros m Hm E. unfold out_of_rounds in E.
  destruct (ok_sound threads total samples init Ht Hne _ _ _ (optimize_ok samples init order clock n p t pre rounds Ho Hs Hp Hr) m Hm) as (_ & [(a & E' & _)|(m' & H)]).
  - rewrite E in E'. discriminate.
  - destruct m as [c sv pr]; cbn in E; subst pr. inversion H.
Qed.

(** ** C43: no panic *)
Theorem C43_optimization_never_panics_partial : forall threads total samples init order clock n p t pre rounds,
  1 <= threads -> ~ In [] samples -> shuffles order -> supported t n -> good_start n p t pre ->
  round_bound samples n <= rounds ->
  (exists m s, optimizing threads total samples init order clock n p t pre rounds m /\ returned m s) /\
  (forall m, optimizing threads total samples init order clock n p t pre rounds m ->
     ~ panicked m /\ ((exists s, returned m s) \/ exists m', step threads total samples init m m')).
Proof.
  intros threads total samples init order clock n p t pre rounds Ht Hne Ho Hs Hp Hr.
  pose proof (optimize_ok samples init order clock n p t pre rounds Ho Hs Hp Hr) as Hok. split.
  - destruct (ok_finishes threads total samples init Ht Hne _ _ _ Hok) as (m & s & H1 & H2 & _). exists m, s. split; assumption.
  - intros m Hm. destruct (ok_sound threads total samples init Ht Hne _ _ _ Hok m Hm) as (_ & [(a & E' & _)|(m' & H)]).
    + split; [|left; exists a; exact E']. unfold panicked. rewrite E'. discriminate.
    + split; [|right; eauto]. unfold panicked. intros E. destruct m as [c sv pr]; cbn in E; subst pr. inversion H.
Qed.

Lemma okO_stats {B} samples init ts (f : stats -> prog B) S Q : askable (NoPairs ts) ->
  (forall a, fresh_answer samples init (NoPairs ts) a -> okO samples init (f a) S Q) -> okO samples init (pbind (get_stats ts) f) S Q.
Proof. intros H1 H2. split; [exact H1|]. intros a Ha. cbn. auto. Qed.

Lemma unsupported_panics samples init order clock n p t fuel : ~ supported t n ->
  okO samples init (optimize_tokenset order clock (S fuel) n p t None) (fun _ => False) (fun o => o = Panic).
Proof.
  intros Hn. unfold optimize_tokenset.
  assert (G : forall ts, first_set p t = Some ts ->
    okO samples init (optimize_impl (optimizer_for t) order clock (S fuel) ts n) (fun _ => False) (fun o => o = Panic)).
  { intros ts E. destruct (first_visited p t ts E) as (V & En & El).
    assert (Ht : t <> BytesHuff) by (intros ->; discriminate).
    unfold optimize_impl. apply okO_stats; [apply (visited_askable t p true); exact V|]. intros s0 _.
    cbn [optimize_loop]. apply pbind_assoc. unfold optimization_step. apply pbind_assoc.
    apply okO_stats; [apply (visited_askable t p true); exact V|]. intros s F.
    destruct (fresh_answered samples init t p true (NoPairs ts) s V F) as (A & _). cbn [requested] in A.
    rewrite El. unfold checked_sub. rewrite Nat.sub_0_r. cbn [Nat.leb pbind].
    pose proof (an_visited A) as Vs. pose proof (an_sized A) as Z.
    assert (Hb : is_bits t -> simple_bytes s n = Panic).
    { intros Hb. apply C35_otherwise_panics.
      - apply C01_tokenizer_exists_iff_usable, (vi_usable _ _ _ _ Vs).
      - exact Z.
      - rewrite (vi_type _ _ _ _ Vs). exact Hb.
      - destruct (vi_shaped _ _ _ _ Vs) as (ss & Sh). pose proof (sh_fits _ _ Sh) as Hx. rewrite (vi_type _ _ _ _ Vs) in Hx.
        clear - Hn Hb Hx. unfold supported in Hn. destruct Hb as [Hb|[Hb|Hb]]; rewrite Hb in *; cbn in *; lia. }
    assert (Hd : t = Bytes \/ t <> Bytes) by (destruct t; [right; discriminate..|left; reflexivity|right; discriminate]).
    destruct Hd as [->|Hnb].
    - cbn [optimizer_for]. unfold noop_bytes. cbn [pbind].
      pose proof (visited_askable Bytes p true (NoPairs (st_token_set s)) Vs) as K.
      split; [exact K|]. intros a F1. cbn [pbind].
      destruct (fresh_answered samples init Bytes p true (NoPairs (st_token_set s)) a Vs F1) as (A1 & _). cbn [requested] in A1.
      assert (Et : total_tokens a = total_tokens s).
      { apply (total_unique (st_token_set s) samples); [apply (an_total A1)|]. eapply an_total'; exact A. }
      unfold pret at 1. cbn [pbind].
      rewrite Et, Nat.ltb_irrefl. unfold remove_add_token. cbn in En.
      assert (Hlt : n < 256) by (unfold supported in Hn; cbn in Hn; lia).
      rewrite (proj2 (Nat.ltb_ge _ _)) by (rewrite En; lia).
      rewrite (proj2 (Nat.eqb_neq _ _)) by (rewrite En; lia). reflexivity.
    - replace (optimizer_for t s n) with (@Panic tokenset); [reflexivity|].
      symmetry. destruct t; try congruence; apply Hb; [left|right; left|right; right]; reflexivity. }
  destruct t; [apply G; reflexivity..|]. unfold initial_set. apply pbind_assoc.
  destruct (visited_bytes p) as (V & _). revert V. generalize (new_bytes p). intros ts V.
  apply okO_stats; [apply (visited_askable Bytes p true); exact V|]. intros s F.
  destruct (fresh_answered samples init Bytes p true (NoPairs ts) s V F) as (A & _).
  rewrite C37_small_budgets_panic; [reflexivity|apply (visited_single _ _ _ _ (an_visited A))|].
  unfold supported in Hn. cbn in Hn. lia.
Qed.

(** Unsupported sizes always panic, whatever the data: sizes below the minimum
    and, for the bits types, sizes above 256 + number of extension tokens,
    although those are not below the type's minimum. *)
Theorem C43_unsupported_targets_panic : forall threads total samples init order clock n p t rounds,
  1 <= threads -> ~ In [] samples -> ~ supported t n -> 1 <= rounds ->
  (exists m, optimizing threads total samples init order clock n p t None rounds m /\ panicked m) /\
  (forall m, optimizing threads total samples init order clock n p t None rounds m ->
     m_saved m = [] /\ (panicked m \/ exists m', step threads total samples init m m')).
Proof.
  intros threads total samples init order clock n p t rounds Ht Hne Hs Hr. destruct rounds as [|rounds]; [lia|].
  pose proof (unsupported_panics samples init order clock n p t rounds Hs) as Hok. split.
  - destruct (okO_finishes threads total samples init Ht Hne _ _ _ Hok) as (m & o & H1 & H2 & ->). exists m. split; assumption.
  - intros m Hm. destruct (okO_sound threads total samples init Ht Hne _ _ _ Hok m Hm) as (S & H). split.
    + destruct (m_saved m) as [|ts l]; [reflexivity|]. destruct (S ts). left; reflexivity.
    + destruct H as [(o & E & ->)|H]; [left; exact E|right; exact H].
Qed.

Theorem C43_optimization_never_panics_refuted : exists t n, smallest_target t <= n /\
  forall threads total samples init order clock p rounds, 1 <= threads -> ~ In [] samples -> 1 <= rounds ->
  exists m, optimizing threads total samples init order clock n p t None rounds m /\ panicked m.
Proof.
  exists Bits1, 300. split; [cbn; lia|]. intros threads total samples init order clock p rounds Ht Hne Hr.
  apply C43_unsupported_targets_panic; try assumption. unfold supported; cbn. lia.
Qed.

(** ** C44: the budget

    All saved sets and the result are also allowed as pretrained sets of a
    further optimization. *)
Theorem C44_result_within_budget : forall threads total samples init order clock n p t pre rounds m,
  1 <= threads -> ~ In [] samples -> shuffles order -> supported t n -> good_start n p t pre ->
  round_bound samples n <= rounds ->
  optimizing threads total samples init order clock n p t pre rounds m ->
  (forall ts, In ts (m_saved m) -> good_result n p t ts /\ good_start n p t (Some ts)) /\
  (forall s, returned m s -> good_result n p t (st_token_set s) /\ good_start n p t (Some (st_token_set s)) /\
     min_total (st_token_set s) samples (total_tokens s)).
Proof.
  intros threads total samples init order clock n p t pre rounds m Ht Hne Ho Hs Hp Hr Hm.
  destruct (ok_sound threads total samples init Ht Hne _ _ _ (optimize_ok samples init order clock n p t pre rounds Ho Hs Hp Hr) m Hm) as (H1 & H2).
  split; [intros ts Hi; split; apply H1; exact Hi|]. intros s E. unfold returned in E.
  destruct H2 as [(a & E' & (H3 & H5 & _) & H4)|(m' & H)].
  - rewrite E in E'. injection E' as <-. split; [exact H3|]. split; assumption.
  - destruct m as [c sv pr]; cbn in E; subst pr. inversion H.
Qed.

(** ** C45: the data never gets longer; C52: progress *)
Definition no_longer (samples : list bstr) (a b : tokenset) : Prop :=
  forall N N', min_total a samples N -> min_total b samples N' -> N' <= N.
Definition progress (samples : list bstr) (a b : tokenset) : Prop :=
  ntokens a <= ntokens b /\
  forall N N', min_total a samples N -> min_total b samples N' -> ntokens a < ntokens b \/ N' < N.

Lemma from_okT samples init order clock n p t sp ts0 fuel : shuffles order -> supported t n ->
  (t = BytesHuff -> sp = true) -> fits t p sp n ts0 -> round_bound samples n <= fuel ->
  okT samples init (optimize_impl (optimizer_for t) order clock fuel ts0 n) [] (fun l => chain samples t n (ts0 :: l))
    (fun l s => chain samples t n (ts0 :: l) /\ exists ts1, ends samples t n (ts0 :: l) ts1 /\ same samples ts1 (st_token_set s)).
Proof.
  intros Hord Hsup Hsp F Hf. destruct (supported_bounds _ _ Hsup) as (_ & Hhi).
  assert (Hin : forall m l x, In x (order m l) -> In x l) by (intros m l x; apply Permutation_in, Hord).
  eapply okT_mono; [intros l H; exact H| |apply (impl_okT samples init t p sp order clock n Hsp Hin Hhi ts0 fuel F Hf)].
  intros l s (C & ts1 & E & S & _). split; [exact C|]. exists ts1. split; assumption.
Qed.

(** The set the search begins with. *)
Definition initial (samples : list bstr) (init : option nat) (n : nat) (p : processing) (t : token_type) (pre : option tokenset) (ts0 : tokenset) : Prop :=
  match pre with
  | Some ts => ts0 = ts
  | None => match t with
            | BytesHuff => exists s, fresh_answer samples init (NoPairs (new_bytes p)) s /\ huff_bytes s n = Ret ts0
            | _ => first_set p t = Some ts0
            end
  end.

(** No single byte can be added to the set: the budget is used up, or all
    256 bytes and both extension tokens are there. *)
Definition no_room (n : nat) (ts : tokenset) : Prop := ntokens ts = n \/ ntokens ts = n_long_tokens ts + 258.

Lemma fresh_answer_unique samples init r a b : fresh_answer samples init r a -> fresh_answer samples init r b -> a = b.
Proof.
  intros (t1 & s1 & E1 & F1 & ->) (t2 & s2 & E2 & F2 & ->). rewrite E1 in E2. apply ret_inj in E2. subst t2.
  rewrite F1 in F2. apply ret_inj in F2. subst s2. reflexivity.
Qed.

Lemma calm_no_room n t ts : t = BytesHuff -> calm t n ts <-> no_room n ts.
Proof.
  intros ->. unfold calm, settled, no_room. pose proof (base_ntokens ts). split; intros H1.
  - destruct H1 as [[H1|H1]|H1]; [congruence|right; lia|left; exact H1].
  - destruct H1 as [H1|H1]; [right; exact H1|left; right; lia].
Qed.

Lemma initial_huff samples init n p ts0 : 3 <= n -> initial samples init n p BytesHuff None ts0 -> fits BytesHuff p true n ts0 /\ no_room n ts0.
Proof.
  intros Hlo (s & Fs & E). destruct (visited_bytes p) as (V & _ & L). revert V L Fs. generalize (new_bytes p). intros tb V L Fs.
  destruct (fresh_answered samples init Bytes p true (NoPairs tb) s V Fs) as (A & _). cbn [requested] in A.
  pose proof (an_visited A) as V1.
  destruct (huff_bytes_visited p true s n eq_refl (visited_single _ _ _ _ V1) (vi_usable _ _ _ _ V1) (vi_proc _ _ _ _ V1) Hlo) as (ts & E' & V2 & B2 & L2).
  rewrite E in E'. apply ret_inj in E'. subst ts. pose proof (base_ntokens ts0) as Nb. rewrite B2 in Nb. rewrite (an_long A), L in L2.
  split; [split; [exact V2|]|unfold no_room]; lia.
Qed.

Lemma optimize_okT samples init order clock n p t pre fuel : shuffles order -> supported t n -> good_start n p t pre ->
  round_bound samples n <= fuel ->
  okT samples init (optimize_tokenset order clock fuel n p t pre) []
    (fun l => chain samples t n l /\ forall ts0, initial samples init n p t pre ts0 -> chain samples t n (ts0 :: l))
    (fun l s => chain samples t n l /\ exists ts1, ends samples t n l ts1 /\ same samples ts1 (st_token_set s) /\
       forall ts0, initial samples init n p t pre ts0 -> chain samples t n (ts0 :: l) /\ ends samples t n (ts0 :: l) ts1).
Proof.
  intros Hord Hsup Hpre Hf. destruct (supported_bounds _ _ Hsup) as (Hlo & _). unfold optimize_tokenset.
  assert (T1 : forall ts l, chain samples t n (ts :: l) -> chain samples t n l) by (intros ts l H; inversion H; assumption).
  assert (T2 : forall ts l ts1, ends samples t n (ts :: l) ts1 -> ends samples t n l ts1) by (intros ts l ts1 H; inversion H; assumption).
  assert (G : forall sp ts, (t = BytesHuff -> sp = true) -> fits t p sp n ts ->
      (forall ts', initial samples init n p t pre ts' -> ts' = ts) ->
      okT samples init (optimize_impl (optimizer_for t) order clock fuel ts n) []
        (fun l => chain samples t n l /\ forall ts0, initial samples init n p t pre ts0 -> chain samples t n (ts0 :: l))
        (fun l s => chain samples t n l /\ exists ts1, ends samples t n l ts1 /\ same samples ts1 (st_token_set s) /\
          forall ts0, initial samples init n p t pre ts0 -> chain samples t n (ts0 :: l) /\ ends samples t n (ts0 :: l) ts1)).
  { intros sp ts Hsp F E. eapply okT_mono; [| |apply (from_okT samples init order clock n p t sp ts fuel Hord Hsup Hsp F Hf)].
    - intros l C. split; [eapply T1; exact C|]. intros ts0 H0. rewrite (E ts0 H0). exact C.
    - intros l s (C & ts1 & H1 & H2). split; [eapply T1; exact C|]. exists ts1. split; [eapply T2; exact H1|]. split; [exact H2|].
      intros ts0 H0. rewrite (E ts0 H0). split; assumption. }
  destruct pre as [ts|].
  - destruct (good_start_flag _ _ _ _ Hpre) as (sp & V & Hsp & Hn). apply (G sp); [exact Hsp|split; assumption|]. intros ts1 E. exact E.
  - assert (G1 : forall ts, first_set p t = Some ts -> fits t p true n ts).
    { intros ts E. destruct (first_visited p t ts E) as (V & En & _). split; [exact V|lia]. }
    assert (G2 : forall ts, first_set p t = Some ts -> forall ts', initial samples init n p t None ts' -> ts' = ts).
    { intros ts E ts' E'. unfold initial in E'. destruct (is_huff_dec t) as [->|Eh]; [discriminate|].
      assert (E2 : first_set p t = Some ts') by (destruct t; [exact E'..|congruence]). congruence. }
    destruct t; [apply (G true); [reflexivity|apply (G1 _ eq_refl)|apply (G2 _ eq_refl)]..|]. unfold initial_set. clear G1 G2.
    split; [split; [constructor|intros ts0 _; repeat constructor]|].
    split; [apply (visited_askable Bytes p true), visited_bytes|]. intros s Fs.
    unfold pret. cbn [pbind].
    assert (E : exists ts, huff_bytes s n = Ret ts).
    { destruct (visited_bytes p) as (V & _ & L). revert V L Fs. generalize (new_bytes p). intros tb V L Fs.
      destruct (fresh_answered samples init Bytes p true (NoPairs tb) s V Fs) as (A & _). cbn [requested] in A.
      pose proof (an_visited A) as V1.
      destruct (huff_bytes_visited p true s n eq_refl (visited_single _ _ _ _ V1) (vi_usable _ _ _ _ V1) (vi_proc _ _ _ _ V1) Hlo) as (ts & E & _). eauto. }
    destruct E as (ts & E). rewrite E. cbn [pbind].
    assert (I0 : initial samples init n p BytesHuff None ts) by (exists s; split; assumption).
    apply (G true); [reflexivity|apply (initial_huff _ _ _ _ _ Hlo I0)|].
    intros ts' (s' & Fs' & E'). rewrite (fresh_answer_unique _ _ _ _ _ Fs' Fs) in E'. congruence.
Qed.

Lemma sorted_impl {A} (R R' : A -> A -> Prop) l : (forall a b, R a b -> R' a b) -> StronglySorted R l -> StronglySorted R' l.
Proof. intros H. induction 1; constructor; auto. eapply Forall_impl; [|eassumption]. auto. Qed.

(** Every token set the program saves, and the result, needs at most as many
    tokens as the sets before it, beginning with the initial set: for bits and
    bytes, for all searches from scratch, and for byteshuff sets without room. *)
Theorem C45_never_longer : forall threads total samples init order clock n p t pre rounds ts0 m,
  1 <= threads -> ~ In [] samples -> shuffles order -> supported t n -> good_start n p t pre ->
  round_bound samples n <= rounds -> initial samples init n p t pre ts0 ->
  t <> BytesHuff \/ pre = None \/ no_room n ts0 ->
  optimizing threads total samples init order clock n p t pre rounds m ->
  StronglySorted (no_longer samples) (ts0 :: m_saved m) /\
  (forall s, returned m s -> Forall (fun a => no_longer samples a (st_token_set s)) (ts0 :: m_saved m)) /\
  (t = BytesHuff -> Forall (no_room n) (ts0 :: m_saved m) /\ forall s, returned m s -> no_room n (st_token_set s)).
Proof.
  intros threads total samples init order clock n p t pre rounds ts0 m Ht Hne Ho Hs Hp Hr H0 Hh Hm.
  assert (W : forall a b, ahead samples t n a b -> calm t n a -> no_longer samples a b).
  { intros a b (_ & _ & H) Hc N N' HN HN'. apply total_for_min in HN, HN'. apply (H N N' HN HN'). exact Hc. }
  assert (C0 : calm t n ts0).
  { destruct (is_huff_dec t) as [->|Eh]; [|left; left; exact Eh]. apply calm_no_room; [reflexivity|].
    destruct Hh as [Hh|[->|Hh]]; [congruence| |exact Hh]. eapply initial_huff; [apply Hs|exact H0]. }
  destruct (okT_sound threads total samples init Ht _ _ _ (optimize_okT samples init order clock n p t pre rounds Ho Hs Hp Hr) m Hm) as ((_ & C) & Q).
  specialize (C ts0 H0). inversion C as [|x y C' Hx]; subst.
  assert (Ca : forall a, In a (ts0 :: m_saved m) -> calm t n a).
  { intros a [<-|Ha]; [exact C0|]. rewrite Forall_forall in Hx. apply (Hx a Ha). exact C0. }
  split; [|split].
  - clear - C Ca W. revert Ca. induction C as [|a l C IH Ha]; intros Ca; constructor.
    + apply IH. intros b Hb. apply Ca. right; exact Hb.
    + rewrite Forall_forall in *. intros b Hb. apply W; [apply Ha, Hb|apply Ca; left; reflexivity].
  - intros s E. destruct (Q s E) as (_ & ts3 & _ & Hsame & K). destruct (K ts0 H0) as (_ & En).
    unfold ends in En. rewrite Forall_forall in *. intros a Ha. destruct (En a Ha) as [->|Hd] ; intros N N' HN HN'.
    + apply total_for_min in HN, HN'. apply (proj2 Hsame) in HN'. rewrite (total_unique _ _ _ _ HN HN'). lia.
    + apply (W _ _ Hd (Ca a Ha) N N' HN). apply total_for_min. apply total_for_min in HN'. apply (proj2 Hsame). exact HN'.
  - intros Eh. split; [apply Forall_forall; intros a Ha; apply (calm_no_room n t a Eh), Ca, Ha|].
    intros s E. destruct (Q s E) as (_ & ts3 & _ & ((Sn & Sl) & _) & K). destruct (K ts0 H0) as (_ & En).
    assert (R : no_room n ts3); [|unfold no_room in *; lia]. apply (calm_no_room n t ts3 Eh).
    unfold ends in En. destruct (Forall_inv En) as [<-|(_ & Hd & _)]; [exact C0|apply Hd; exact C0].
Qed.

(** For every type and every start, of two sets of the same size the later one
    is no longer. *)
Theorem C45_same_size_never_longer : forall threads total samples init order clock n p t pre rounds m,
  1 <= threads -> ~ In [] samples -> shuffles order -> supported t n -> good_start n p t pre ->
  round_bound samples n <= rounds ->
  optimizing threads total samples init order clock n p t pre rounds m ->
  StronglySorted (fun a b => ntokens a = ntokens b -> no_longer samples a b) (m_saved m) /\
  (forall s, returned m s -> forall a, In a (m_saved m) -> ntokens a = ntokens (st_token_set s) -> no_longer samples a (st_token_set s)).
Proof.
  intros threads total samples init order clock n p t pre rounds m Ht Hne Ho Hs Hp Hr Hm.
  destruct (okT_sound threads total samples init Ht _ _ _ (optimize_okT samples init order clock n p t pre rounds Ho Hs Hp Hr) m Hm) as ((C & _) & Q).
  assert (W : forall a b, ahead samples t n a b -> ntokens a = ntokens b -> no_longer samples a b).
  { intros a b (_ & _ & H) E N N' HN HN'. apply total_for_min in HN, HN'. destruct (proj1 (H N N' HN HN')); lia. }
  split; [eapply sorted_impl; [exact W|exact C]|].
  intros s E a Ha Na N N' HN HN'. destruct (Q s E) as (_ & ts3 & En & ((Sn & _) & Sm) & _).
  unfold ends in En. rewrite Forall_forall in En. apply total_for_min in HN'. apply Sm in HN'.
  destruct (En a Ha) as [->|Hd].
  - apply total_for_min in HN. rewrite (total_unique _ _ _ _ HN HN'). lia.
  - apply (W a ts3 Hd); [lia|exact HN|apply total_for_min; exact HN'].
Qed.

(** Each saved set has more tokens than any saved before it, or as many and a
    shorter encoding of the data: the search never comes back to a set. *)
Theorem C52_search_makes_progress : forall threads total samples init order clock n p t pre rounds m,
  1 <= threads -> ~ In [] samples -> shuffles order -> supported t n -> good_start n p t pre ->
  round_bound samples n <= rounds ->
  optimizing threads total samples init order clock n p t pre rounds m ->
  StronglySorted (progress samples) (m_saved m) /\
  (forall s, returned m s -> Forall (fun a => ntokens a <= ntokens (st_token_set s)) (m_saved m)) /\
  NoDup (m_saved m).
Proof.
  intros threads total samples init order clock n p t pre rounds m Ht Hne Ho Hs Hp Hr Hm.
  assert (W : forall a b, ahead samples t n a b -> progress samples a b).
  { intros a b (H1 & _ & H). split; [exact H1|]. intros N N' HN HN'. apply total_for_min in HN, HN'. apply (H N N' HN HN'). }
  destruct (okT_sound threads total samples init Ht _ _ _ (optimize_okT samples init order clock n p t pre rounds Ho Hs Hp Hr) m Hm) as ((C & _) & Q).
  assert (SS : StronglySorted (progress samples) (m_saved m)) by (eapply sorted_impl; [exact W|exact C]).
  split; [exact SS|]. split.
  - intros s E. destruct (Q s E) as (_ & ts3 & En & ((Hsame & _) & _) & _).
    eapply Forall_impl; [|exact En]. intros a [->|(Ha & _)]; lia.
  - destruct (C44_result_within_budget threads total samples init order clock n p t pre rounds m Ht Hne Ho Hs Hp Hr Hm) as (G & _).
    clear - SS G. induction SS as [|a l SS IH Ha]; constructor.
    + intros Hi. rewrite Forall_forall in Ha. destruct (Ha a Hi) as (_ & Hp').
      destruct (G a (or_introl eq_refl)) as ((Htk & _) & _). apply C01_tokenizer_exists_iff_usable in Htk.
      destruct (total_exists samples a Htk) as (N & HN). apply total_for_min in HN. specialize (Hp' N N HN HN). lia.
    + apply IH. intros ts Hi; apply G; right; exact Hi.
Qed.

(** ** C47: the estimate of the tokens spent on single bytes *)

(** Tokens of the segments that encode a single byte. *)
Definition spent_on_bytes (ts : tokenset) (ps : list piece) : nat :=
  sum (map (fun p => match piece_string ts p with Some [_] => length (piece_tokens ts p) | _ => 0 end) ps).

(** Exact if no sequence contains a one-byte token: all bits and bytes sets. *)
Theorem C47_estimate_exact_partial : forall ts tk samples init s,
  tokenizer_new ts = Ret tk -> seqs_in_range ts ->
  (forall q j b, In q (sequences ts) -> In j (seq_tokens q) -> nth_error (tokens ts) j <> Some (Str [b])) ->
  tokenize_file_sync ts samples init = Ret s ->
  exists pss, Forall2 (optimal ts) pss samples /\
    (forall j, nth j (token_counts s) 0 = count_occ Nat.eq_dec (stream ts (concat pss)) j) /\
    (forall q, nth q (seq_counts s) 0 = count_occ piece_eq_dec (concat pss) (PSeq q)) /\
    count_tokens_in_bytes ts s = Ret (spent_on_bytes ts (concat pss)).
Proof.
  intros ts tk samples init s Htk Hr Hh Hs.
  assert (Hu : usable ts) by (apply C01_tokenizer_exists_iff_usable; eauto).
  destruct (sync_tallied ts samples init s Hs Hr) as (pss & T & _). exists pss.
  split; [apply (ta_opt _ _ _ _ T)|]. split; [apply (ta_tok _ _ _ _ T)|]. split; [apply (ta_seq _ _ _ _ T)|].
  exact (estimate_exact ts samples pss s T Hu Hh).
Qed.

(** Bits and bytes sets that occur in a search satisfy the hypotheses. *)
Theorem C47_estimate_in_search : forall t p sp ts samples init a, visited t p sp ts -> t <> BytesHuff ->
  fresh_answer samples init (NoPairs ts) a ->
  exists pss, Forall2 (optimal (st_token_set a)) pss samples /\ total_tokens a = length (stream (st_token_set a) (concat pss)) /\
    count_tokens_in_bytes (st_token_set a) a = Ret (spent_on_bytes (st_token_set a) (concat pss)).
Proof.
  intros t p sp ts samples init a V Ht F. destruct (fresh_answered samples init t p sp (NoPairs ts) a V F) as (A & _).
  destruct (an_tallied A) as (pss & T). exists pss. split; [apply (ta_opt _ _ _ _ T)|]. split; [apply (ta_total _ _ _ _ T)|].
  apply (estimate_exact _ samples pss a T (vi_usable _ _ _ _ (an_visited A))). eapply visited_heads_free; [apply (an_visited A)|exact Ht].
Qed.

Lemma sum_ge {A} (f : A -> nat) l x : In x l -> f x <= sum (map f l).
Proof.
  unfold sum. induction l as [|y l IH]; intros []; cbn; [subst; lia|]. specialize (IH H). lia.
Qed.

Lemma estimate_too_big ts samples s pss q b h enc c i : tallied ts samples pss s -> usable ts ->
  nth_error (sequences ts) i = Some q -> q = mkSeq [b] (h :: enc) -> nth_error (tokens ts) h = Some (Str [c]) ->
  pss = [[PSeq i]] -> count_tokens_in_bytes ts s = Ret (spent s (cost ts)) /\ spent_on_bytes ts (concat pss) < spent s (cost ts).
Proof.
  intros T Hu Ei -> Eh ->. pose proof (ta_set _ _ _ _ T) as Es.
  assert (Hz : sized s) by (split; rewrite Es; [apply (ta_ntok _ _ _ _ T)|apply (ta_nseq _ _ _ _ T)]).
  split; [apply count_tokens_ok; assumption|]. cbn [concat app]. unfold spent_on_bytes. cbn [map piece_string]. rewrite Ei.
  cbn [option_map seq_string piece_tokens]. rewrite Ei. cbn [seq_tokens].
  unfold spent, byte_uses. rewrite map_app, sum_app.
  assert (H1 : In (c, nth h (token_counts s) 0) (token_uses s)).
  { apply in_token_uses. exists h. rewrite Es. split; [exact Eh|]. apply nth_error_nth'. rewrite (ta_ntok _ _ _ _ T).
    unfold ntokens. apply nth_error_Some. rewrite Eh. discriminate. }
  assert (H2 : In (b, nth i (seq_counts s) 0) (seq_uses s)).
  { apply in_seq_uses. exists i, (mkSeq [b] (h :: enc)). rewrite Es. split; [exact Ei|]. split; [reflexivity|]. apply nth_error_nth'. rewrite (ta_nseq _ _ _ _ T).
    apply nth_error_Some. rewrite Ei. discriminate. }
  pose proof (sum_ge (fun p => cost ts (fst p) * snd p) _ _ H1) as G1.
  pose proof (sum_ge (fun p => cost ts (fst p) * snd p) _ _ H2) as G2. cbn [fst snd] in G1, G2.
  rewrite (ta_tok _ _ _ _ T) in G1. rewrite (ta_seq _ _ _ _ T) in G2. cbn [concat app] in G1, G2.
  rewrite <- (cost_piece ts (PTok h) c Hu) in G1 by (cbn; rewrite Eh; reflexivity).
  rewrite <- (cost_piece ts (PSeq i) b Hu) in G2 by (cbn; rewrite Ei; reflexivity).
  cbn [piece_tokens] in G1, G2. rewrite Ei in G2. unfold stream in G1. cbn [flat_map piece_tokens app] in G1. rewrite Ei in G1.
  cbn [seq_tokens app count_occ length] in G1, G2.
  destruct (Nat.eq_dec h h) as [_|Hx]; [|congruence]. destruct (piece_eq_dec (PSeq i) (PSeq i)) as [_|Hx]; [|congruence].
  unfold sum at 1. cbn [fold_right length]. lia.
Qed.

Lemma single_piece ts ps p b : usable ts -> segments ts ps [b] -> piece_string ts p = Some [b] -> ps = [p].
Proof.
  intros Hu Hs Hp.
  assert (Hne : forall p x, piece_string ts p = Some x -> x <> []).
  { intros p0 x H ->. destruct Hu as (_ & Hn & _). apply Hn. unfold strings. apply in_app_iff. destruct p0 as [i|i]; cbn in H.
    - left. destruct (nth_error (tokens ts) i) as [[y|]|] eqn:E; try discriminate. injection H as ->.
      apply in_flat_map. exists (Str []). split; [eapply nth_error_In; exact E|left; reflexivity].
    - right. destruct (nth_error (sequences ts) i) as [q|] eqn:E; [|discriminate]. injection H as H.
      apply in_map_iff. exists q. split; [exact H|eapply nth_error_In; exact E]. }
  remember [b] as text eqn:Et. destruct Hs as [|p1 ps x r Hp1 Hs]; [discriminate|].
  pose proof (Hne _ _ Hp1) as N1. destruct x as [|b' x]; [congruence|]. cbn in Et. injection Et as -> Er.
  apply app_eq_nil in Er as (-> & ->). rewrite (piece_unique ts p1 p [b] Hu Hp1 Hp). f_equal.
  clear - Hne Hs. inversion Hs as [|p2 ps' x r Hp2 Hs2 E1 E2]; [reflexivity|].
  apply app_eq_nil in E2 as (E2 & _). exfalso. exact (Hne _ _ Hp2 E2).
Qed.

(** One-byte tokens inside the sequences of a segmentation. *)
Definition one_byte_token (ts : tokenset) (j : nat) : bool :=
  match nth_error (tokens ts) j with Some (Str [_]) => true | _ => false end.
Definition inside_sequences (ts : tokenset) (ps : list piece) : nat :=
  sum (map (fun p => match p with
                     | PSeq _ => length (filter (one_byte_token ts) (piece_tokens ts p))
                     | PTok _ => 0
                     end) ps).

Lemma filter_no {A} (f : A -> bool) l : (forall x, In x l -> f x = false) -> filter f l = [].
Proof.
  induction l as [|x l IH]; intros H; [reflexivity|]. cbn. rewrite (H x (or_introl eq_refl)).
  apply IH. intros y Hy. apply H; right; exact Hy.
Qed.

Section Inside.
Variable ts : tokenset.
Hypothesis Hu : usable ts.
Definition token_of (b : byte) (j : nat) : bool :=
  match nth_error (tokens ts) j with Some (Str [b']) => Byte.eqb b' b | _ => false end.
Definition inside (b : byte) (p : piece) : nat :=
  match p with PSeq _ => length (filter (token_of b) (piece_tokens ts p)) | PTok _ => 0 end.

Lemma token_of_spec b j : token_of b j = true <-> nth_error (tokens ts) j = Some (Str [b]).
Proof.
  unfold token_of. destruct (nth_error (tokens ts) j) as [[[|b' [|]]|]|]; split; try congruence.
  - intros H. apply byte_eqb_eq in H as ->. reflexivity.
  - intros [= ->]. apply byte_eqb_eq. reflexivity.
Qed.

Lemma tokens_unique b i j : nth_error (tokens ts) i = Some (Str [b]) -> nth_error (tokens ts) j = Some (Str [b]) -> i = j.
Proof.
  intros H1 H2. assert (E : PTok i = PTok j); [|congruence].
  apply (piece_unique ts _ _ [b] Hu); cbn; [rewrite H1|rewrite H2]; reflexivity.
Qed.

Lemma count_filter b j l : nth_error (tokens ts) j = Some (Str [b]) -> count_occ Nat.eq_dec l j = length (filter (token_of b) l).
Proof.
  intros Hj. induction l as [|i l IH]; [reflexivity|]. cbn [count_occ filter].
  destruct (Nat.eq_dec i j) as [->|Hn].
  - rewrite (proj2 (token_of_spec b j) Hj). cbn [length]. lia.
  - destruct (token_of b i) eqn:E; [|exact IH]. apply token_of_spec in E. elim Hn. eapply tokens_unique; eassumption.
Qed.

Lemma count_occ_inside j b ps : nth_error (tokens ts) j = Some (Str [b]) ->
  count_occ Nat.eq_dec (stream ts ps) j = count_occ piece_eq_dec ps (PTok j) + sum (map (inside b) ps).
Proof.
  intros Hj. induction ps as [|p ps IH]; [reflexivity|].
  unfold stream; cbn [flat_map]. rewrite count_occ_app. fold (stream ts ps). rewrite IH.
  cbn [map]. unfold sum; cbn [fold_right]. fold (sum (map (inside b) ps)).
  destruct p as [i|i].
  - cbn [piece_tokens inside count_occ]. destruct (Nat.eq_dec i j) as [E|Hn], (piece_eq_dec (PTok i) (PTok j)) as [E'|Hn']; try congruence; lia.
  - cbn [count_occ]. destruct (piece_eq_dec (PSeq i) (PTok j)) as [E|_]; [discriminate|].
    rewrite (count_filter b j _ Hj). unfold inside. lia.
Qed.

Lemma inside_none b i ps : piece_string ts (PSeq i) = Some [b] -> sum (map (inside b) ps) = 0.
Proof.
  intros Hi. apply sum_zero. intros [j|j]; [reflexivity|]. cbn [inside].
  rewrite filter_no; [reflexivity|]. intros x _. destruct (token_of b x) eqn:E; [|reflexivity].
  apply token_of_spec in E. exfalso.
  assert (X : PSeq i = PTok x); [|discriminate]. apply (piece_unique ts _ _ [b] Hu Hi). cbn. rewrite E. reflexivity.
Qed.

Lemma uses_inside samples pss s b : tallied ts samples pss s ->
  uses s b = pieces_of_byte ts b (concat pss) + sum (map (inside b) (concat pss)).
Proof.
  intros H. pose proof (ta_set _ _ _ _ H) as Es.
  assert (Hz : sized s) by (split; rewrite Es; [apply (ta_ntok _ _ _ _ H)|apply (ta_nseq _ _ _ _ H)]).
  assert (Hub : In (b, uses s b) (byte_uses s)) by (apply uses_in; [exact Hz|rewrite Es; exact Hu]).
  unfold byte_uses in Hub. apply in_app_iff in Hub as [Hi|Hi].
  - apply in_token_uses in Hi as (i & Hi & Hc). rewrite Es in Hi.
    assert (Hp : piece_string ts (PTok i) = Some [b]) by (cbn; rewrite Hi; reflexivity).
    rewrite (filter_is_count ts b (PTok i) _ Hu Hp) by (intros p G; eapply piece_unique; eauto).
    rewrite <- (count_occ_inside i b _ Hi), <- (ta_tok _ _ _ _ H).
    symmetry. apply nth_error_nth. exact Hc.
  - apply in_seq_uses in Hi as (i & q & Hi & Eq & Hc). rewrite Es in Hi.
    assert (Hp : piece_string ts (PSeq i) = Some [b]) by (cbn; rewrite Hi; cbn; rewrite Eq; reflexivity).
    rewrite (filter_is_count ts b (PSeq i) _ Hu Hp) by (intros p G; eapply piece_unique; eauto).
    rewrite (inside_none b i _ Hp), Nat.add_0_r.
    rewrite <- (ta_seq _ _ _ _ H). symmetry. apply nth_error_nth. exact Hc.
Qed.

(** Grouped by byte; a one-byte token costs one. *)
Lemma inside_grouped ps : sum (map (fun b => cost ts b * sum (map (inside b) ps)) all_bytes) = inside_sequences ts ps.
Proof.
  unfold inside_sequences. induction ps as [|p ps IH].
  - cbn [map]. apply sum_zero. intros b. unfold sum; cbn. lia.
  - cbn [map]. unfold sum at 3. cbn [fold_right].
    match goal with |- _ = ?a + fold_right Nat.add 0 ?l => change (fold_right Nat.add 0 l) with (sum l) end.
    rewrite <- IH.
    transitivity (sum (map (fun b => cost ts b * inside b p) all_bytes) + sum (map (fun b => cost ts b * sum (map (inside b) ps)) all_bytes)).
    { rewrite <- sum_plus. apply sum_ext. intros b _. unfold sum; cbn [map fold_right]. lia. }
    f_equal. destruct p as [i|i]; [apply sum_zero; intros b; cbn; lia|]. cbn [inside].
    generalize (piece_tokens ts (PSeq i)). intros l. induction l as [|j l IHl].
    + apply sum_zero. intros b. cbn. lia.
    + cbn [filter].
      transitivity (sum (map (fun b => (if token_of b j then cost ts b else 0) + cost ts b * length (filter (token_of b) l)) all_bytes)).
      { apply sum_ext. intros b _. destruct (token_of b j); cbn [length]; lia. }
      rewrite sum_plus, IHl. unfold one_byte_token at 2, token_of.
      destruct (nth_error (tokens ts) j) as [[[|b [|]]|]|] eqn:E; cbn [length].
      2: { rewrite sum_all_bytes_one. assert (C : cost ts b = 1); [|rewrite C; reflexivity].
           rewrite <- (cost_piece ts (PTok j) b Hu) by (cbn; rewrite E; reflexivity). reflexivity. }
      all: rewrite sum_zero by reflexivity; reflexivity.
Qed.
End Inside.

(** For every token set: the estimate is what is spent on single bytes, and one
    more for each one-byte token in each sequence used. *)
Theorem C47_estimate_formula : forall ts tk samples init s,
  tokenizer_new ts = Ret tk -> seqs_in_range ts ->
  tokenize_file_sync ts samples init = Ret s ->
  exists pss, Forall2 (optimal ts) pss samples /\
    (forall j, nth j (token_counts s) 0 = count_occ Nat.eq_dec (stream ts (concat pss)) j) /\
    (forall q, nth q (seq_counts s) 0 = count_occ piece_eq_dec (concat pss) (PSeq q)) /\
    count_tokens_in_bytes ts s = Ret (spent_on_bytes ts (concat pss) + inside_sequences ts (concat pss)).
Proof.
  intros ts tk samples init s Htk Hr Hs.
  assert (Hu : usable ts) by (apply C01_tokenizer_exists_iff_usable; eauto).
  destruct (sync_tallied ts samples init s Hs Hr) as (pss & T & _). exists pss.
  split; [apply (ta_opt _ _ _ _ T)|]. split; [apply (ta_tok _ _ _ _ T)|]. split; [apply (ta_seq _ _ _ _ T)|].
  pose proof (ta_set _ _ _ _ T) as Es.
  assert (Hz : sized s) by (split; rewrite Es; [apply (ta_ntok _ _ _ _ T)|apply (ta_nseq _ _ _ _ T)]).
  rewrite (count_tokens_ok ts s Hu Hz), (spent_grouped s _ Hz) by (rewrite Es; exact Hu).
  change (spent_on_bytes ts) with (byte_tokens ts). rewrite byte_tokens_grouped by exact Hu.
  rewrite <- (inside_grouped ts Hu), <- sum_plus. f_equal. apply sum_ext. intros b _.
  rewrite (uses_inside ts Hu samples pss s b T). lia.
Qed.

(** In huffman sets the first token of a sequence is a one-byte token, whose
    counter includes its uses in sequences: these are counted twice. *)
Theorem C47_estimate_exact_refuted : exists ts tk b s,
  tokenizer_new ts = Ret tk /\ ts_type ts = BytesHuff /\ seqs_in_range ts /\
  tokenize_file_sync ts [[b]] None = Ret s /\
  (forall ps, optimal ts ps [b] -> exists e, count_tokens_in_bytes ts s = Ret e /\ spent_on_bytes ts ps < e) /\
  exists s0 init n, huff_bytes s0 n = Ret ts /\ tokenize_file_sync (new_bytes Raw) [] init = Ret s0.
Proof.
  destruct (visited_bytes Raw) as (V0 & _ & L0). revert V0 L0. generalize (new_bytes Raw). intros tb V0 L0.
  destruct (proj2 (C01_tokenizer_exists_iff_usable tb) (vi_usable _ _ _ _ V0)) as (tk0 & Htk0).
  assert (Es0 : exists s0, tokenize_file_sync tb [] None = Ret s0) by (eexists; apply (sync_eq tb tk0 Htk0 (visited_range _ _ _ _ V0))).
  destruct Es0 as (s0 & Es0). destruct (sync_tallied tb _ None s0 Es0 (visited_range _ _ _ _ V0)) as (pss0 & T0 & _).
  pose proof (ta_set _ _ _ _ T0) as Et0. clear T0 pss0. rewrite <- Et0 in V0, L0.
  destruct (huff_bytes_visited Raw true s0 3 eq_refl (visited_single _ _ _ _ V0) (vi_usable _ _ _ _ V0) (vi_proc _ _ _ _ V0) (le_n 3)) as (ts & E & V & _).
  destruct (C37_huffman_size s0 3 (visited_single _ _ _ _ V0) (le_n 3)) as (ts1 & E1 & Nt & _ & _ & Hx). rewrite E in E1. apply ret_inj in E1. subst ts1.
  destruct (C36_huffman_encoding s0 3 (visited_single _ _ _ _ V0) (proj2 (C01_tokenizer_exists_iff_usable _) (vi_usable _ _ _ _ V0)) (le_n 3)) as (ts1 & E1 & _ & _ & _ & Hall & Hq & _).
  rewrite E in E1. apply ret_inj in E1. subst ts1. rewrite L0 in Nt. cbn in Nt.
  destruct (vi_shaped _ _ _ _ V) as (ss & Sh). pose proof (shaped_ntokens _ _ Sh) as Ln.
  pose proof (vi_usable _ _ _ _ V) as Hu.
  assert (Hb : exists b, In [b] (map seq_string (sequences ts))).
  { destruct (Hall x61) as [(H1 & _)|(_ & H1)]; [|eauto]. destruct (Hall x62) as [(H2 & _)|(_ & H2)]; [|eauto]. exfalso.
    apply in_str_tokens in H1, H2. rewrite (str_tokens_shaped _ _ (sh_tokens _ _ Sh)) in H1, H2.
    assert (Hl : length [[x61]; [x62]] <= length ss).
    { apply NoDup_incl_length; [repeat constructor; cbn; intuition discriminate|]. intros x [<-|[<-|[]]]; assumption. }
    cbn in Hl. lia. }
  destruct Hb as (b & Hb). apply in_map_iff in Hb as (q & Eq & Hqi). destruct (Hq q Hqi) as (b' & h & enc & c & Eq' & Eh & _).
  assert (b' = b) by (rewrite Eq' in Eq; cbn in Eq; congruence). subst b'.
  apply In_nth_error in Hqi as (i & Hi).
  destruct (proj2 (C01_tokenizer_exists_iff_usable ts) Hu) as (tk & Htk). pose proof (visited_range _ _ _ _ V) as Hr.
  assert (Es : exists s, tokenize_file_sync ts [[b]] None = Ret s) by (eexists; apply (sync_eq ts tk Htk Hr)).
  destruct Es as (s & Es). destruct (sync_tallied ts _ None s Es Hr) as (pss & T & _).
  assert (Hpq : piece_string ts (PSeq i) = Some [b]) by (cbn; rewrite Hi, Eq'; reflexivity).
  pose proof (ta_opt _ _ _ _ T) as Ho. inversion Ho as [|ps x l l' Hps Hl]; subst. inversion Hl; subst.
  assert (ps = [PSeq i]) by (eapply single_piece; [exact Hu|apply Hps|exact Hpq]). subst ps.
  destruct (estimate_too_big ts [[b]] s [[PSeq i]] _ b h enc c i T Hu Hi eq_refl Eh eq_refl) as (Ec & Hlt).
  exists ts, tk, b, s. split; [exact Htk|]. split; [apply (vi_type _ _ _ _ V)|]. split; [exact Hr|]. split; [exact Es|]. split.
  - intros ps (Hps' & _). rewrite (single_piece ts ps (PSeq i) b Hu Hps' Hpq). eauto.
  - exists s0, None, 3. split; [exact E|reflexivity || exact Es0].
Qed.

(** The hypotheses of C42-C45 and C52 are met; by C43 such executions exist. *)
Example C42_hypotheses_met :
  shuffles (fun _ l => l) /\ shuffles (fun _ l => rev l) /\ ~ In [] [[x61; x62]; [x61]] /\
  supported Bits1 10 /\ supported Bits4 272 /\ supported Bytes 1000 /\ supported BytesHuff 3 /\
  good_start 10 Raw Bits1 None /\ good_start 300 Raw Bytes (Some (new_bytes Raw)) /\
  exists m s, optimizing 4 3 [[x61; x62]; [x61]] None (fun _ l => l) (fun _ => true) 10 Raw Bits1 None (round_bound [[x61; x62]; [x61]] 10) m /\ returned m s.
Proof.
  assert (Hs : shuffles (fun _ l => l)) by (intros m l; reflexivity).
  assert (Hr : shuffles (fun _ l => rev l)) by (intros m l; symmetry; apply Permutation_rev).
  assert (Hn : ~ In [] [[x61; x62]; [x61]]) by (cbn; intuition discriminate).
  assert (G : supported Bits1 10) by (unfold supported; cbn; lia).
  split; [exact Hs|]. split; [exact Hr|]. split; [exact Hn|]. split; [exact G|].
  split; [unfold supported; cbn; lia|]. split; [split; [apply Nat.leb_le; reflexivity|exact I]|]. split; [split; [apply Nat.leb_le; reflexivity|exact I]|].
  split; [exact I|]. split.
  - destruct (visited_bytes Raw) as (V & B & L). exists true. split; [exact V|].
    rewrite base_ntokens, B, L. apply Nat.leb_le. reflexivity.
  - apply C43_optimization_never_panics_partial; [lia|exact Hn|exact Hs|exact G|exact I|apply le_n].
Qed.
