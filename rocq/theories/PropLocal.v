(** * Property C105: token counts change locally.

    What one byte of a text, or one cut between two samples, can do to the number of
    tokens is bounded by the token set, whatever the text. *)
From Verif Require Import Base BaseLemmas TokenSetModel TokenizerModel TokSpec TokenizerProof1 TokenizerProof2 TokenSetProof
  TokenizerTheory TokenSetProof2 PropTokenizer PropJson Shaped CacheModel OptimizeModel OptimizeProof2 PropOptimize.

(** ** Specification

    [bounds ts longest dearest]: no string of the set is longer than [longest], no single
    byte costs more than [dearest] tokens, and nothing is free. *)
Record bounds (ts : tokenset) (longest dearest : nat) : Prop := {
  bd_long : forall x, In x (strings ts) -> length x <= longest;
  bd_byte : forall c, exists p, piece_string ts p = Some [c] /\ length (piece_tokens ts p) <= dearest;
  bd_seqs : forall q, In q (sequences ts) -> seq_tokens q <> []
}.

(** ** Cutting a segmentation *)
Lemma segments_split ts a b ps : segments ts ps (a ++ b) ->
  (exists ps1 ps2, ps = ps1 ++ ps2 /\ segments ts ps1 a /\ segments ts ps2 b) \/
  (exists ps1 p ps2 a' x y b', ps = ps1 ++ p :: ps2 /\ a = a' ++ x /\ b = y ++ b' /\ x <> [] /\ y <> [] /\
     piece_string ts p = Some (x ++ y) /\ segments ts ps1 a' /\ segments ts ps2 b').
Proof.
  intros H. remember (a ++ b) as w eqn:Ew. revert a Ew. induction H as [|p ps s r Hp Hps IH]; intros a Ew.
  - symmetry in Ew. apply app_eq_nil in Ew as [-> ->]. left. exists [], []. repeat split; constructor.
  - destruct (Nat.le_gt_cases (length s) (length a)) as [Hle|Hgt].
    + assert (Ha : a = s ++ skipn (length s) a /\ r = skipn (length s) a ++ b).
      { apply (f_equal (firstn (length s))) in Ew as E1. rewrite firstn_app, firstn_all, Nat.sub_diag, firstn_O, app_nil_r in E1.
        rewrite firstn_app in E1. replace (length s - length a) with 0 in E1 by lia. rewrite firstn_O, app_nil_r in E1.
        assert (Ea : a = s ++ skipn (length s) a) by (rewrite E1 at 1; rewrite firstn_skipn; reflexivity).
        split; [exact Ea|]. rewrite Ea, <- app_assoc in Ew. apply app_inv_head in Ew. exact Ew. }
      destruct Ha as (Ea & Er). destruct (IH _ Er) as [(p1 & p2 & -> & H1 & H2)|(p1 & q & p2 & a' & x & y & b' & -> & Ex & Ey & Nx & Ny & Hq & H1 & H2)].
      * left. exists (p :: p1), p2. split; [reflexivity|]. split; [|exact H2]. rewrite Ea. constructor; assumption.
      * right. exists (p :: p1), q, p2, (s ++ a'), x, y, b'. split; [reflexivity|].
        split; [rewrite Ea, Ex; apply app_assoc|]. repeat (split; [assumption|]). split; [constructor; assumption|exact H2].
    + destruct a as [|c a0].
      { left. exists [], (p :: ps). cbn in Ew. rewrite <- Ew. split; [reflexivity|]. split; [constructor|constructor; assumption]. }
      set (a := c :: a0) in *. right.
      assert (Es : s = a ++ firstn (length s - length a) b /\ b = firstn (length s - length a) b ++ r).
      { apply (f_equal (firstn (length s))) in Ew as E1. rewrite firstn_app, firstn_all, Nat.sub_diag, firstn_O, app_nil_r in E1.
        rewrite firstn_app, firstn_all2 in E1 by lia. split; [exact E1|].
        apply (f_equal (skipn (length s))) in Ew as E2. rewrite skipn_app, skipn_all, Nat.sub_diag in E2. cbn [skipn app] in E2.
        rewrite skipn_app, skipn_all2 in E2 by lia. cbn [app] in E2. rewrite E2. symmetry. apply firstn_skipn. }
      destruct Es as (Es & Eb). exists [], p, ps, [], a, (firstn (length s - length a) b), r.
      split; [reflexivity|]. split; [reflexivity|]. split; [exact Eb|]. split; [discriminate|].
      split; [intros E; rewrite E, app_nil_r in Es; rewrite Es in Hgt; lia|]. rewrite <- Es. split; [exact Hp|]. split; [constructor|exact Hps].
Qed.

Section Bounded.
Variables (ts : tokenset) (L K : nat).
Hypothesis B : bounds ts L K.

Lemma spelled text : exists ps, segments ts ps text /\ length (stream ts ps) <= K * length text.
Proof.
  induction text as [|c text (ps & Hs & Hl)]; [exists []; split; [constructor|cbn; lia]|].
  destruct (bd_byte _ _ _ B c) as (p & Hp & Hc). exists (p :: ps). split; [apply (seg_cons ts p ps [c] text); assumption|].
  change (stream ts (p :: ps)) with (piece_tokens ts p ++ stream ts ps). rewrite app_length. cbn [length]. lia.
Qed.

Lemma min_spelled text n : min_tokens ts text n -> n <= K * length text.
Proof. intros H. destruct (spelled text) as (ps & Hs & Hl). pose proof (min_tokens_le _ _ _ _ H Hs). lia. Qed.

Lemma stream_mid ps1 p ps2 : length (stream ts (ps1 ++ p :: ps2)) =
  length (stream ts ps1) + length (piece_tokens ts p) + length (stream ts ps2).
Proof.
  rewrite stream_app, app_length. change (stream ts (p :: ps2)) with (piece_tokens ts p ++ stream ts ps2). rewrite app_length. lia.
Qed.

Lemma cut_cost a b n na nb : min_tokens ts (a ++ b) n -> min_tokens ts a na -> min_tokens ts b nb ->
  na + nb <= n + (K * L - 1).
Proof.
  intros (ps & (Hs & _) & ->) Ha Hb.
  destruct (segments_split _ _ _ _ Hs) as [(p1 & p2 & -> & H1 & H2)|(p1 & q & p2 & a' & x & y & b' & -> & -> & -> & Nx & Ny & Hq & H1 & H2)].
  - pose proof (min_tokens_le _ _ _ _ Ha H1). pose proof (min_tokens_le _ _ _ _ Hb H2). rewrite stream_app, app_length. lia.
  - destruct (spelled x) as (px & Sx & Lx). destruct (spelled y) as (py & Sy & Ly).
    pose proof (min_tokens_le _ _ _ _ Ha (segments_app _ _ _ _ _ H1 Sx)) as Ja.
    pose proof (min_tokens_le _ _ _ _ Hb (segments_app _ _ _ _ _ Sy H2)) as Jb. rewrite stream_app, app_length in Ja, Jb.
    rewrite stream_mid. pose proof (piece_tokens_pos ts q _ (bd_seqs _ _ _ B) Hq).
    assert (Hxy : length x + length y <= L) by (rewrite <- app_length; apply (bd_long _ _ _ B), in_strings; eauto).
    assert (K * length x + K * length y <= K * L) by nia. lia.
Qed.

Lemma prefix_cost a b n na : min_tokens ts (a ++ b) n -> min_tokens ts a na -> na <= n + (K * (L - 1) - 1).
Proof.
  intros (ps & (Hs & _) & ->) Ha.
  destruct (segments_split _ _ _ _ Hs) as [(p1 & p2 & -> & H1 & H2)|(p1 & q & p2 & a' & x & y & b' & -> & -> & -> & Nx & Ny & Hq & H1 & H2)].
  - pose proof (min_tokens_le _ _ _ _ Ha H1). rewrite stream_app, app_length. lia.
  - destruct (spelled x) as (px & Sx & Lx).
    pose proof (min_tokens_le _ _ _ _ Ha (segments_app _ _ _ _ _ H1 Sx)) as Ja. rewrite stream_app, app_length in Ja.
    rewrite stream_mid. pose proof (piece_tokens_pos ts q _ (bd_seqs _ _ _ B) Hq).
    assert (Hxy : length x + length y <= L) by (rewrite <- app_length; apply (bd_long _ _ _ B), in_strings; eauto).
    assert (1 <= length y) by (destruct y; [congruence|cbn; lia]).
    assert (K * length x <= K * (L - 1)) by nia. lia.
Qed.

Lemma parts_cost parts ns n : usable ts -> Forall2 (min_tokens ts) parts ns -> min_tokens ts (concat parts) n ->
  sum ns <= n + (length parts - 1) * (K * L - 1).
Proof.
  intros Hu H. revert n. induction H as [|p m parts ns Hp H IH]; intros n Hn; [cbn; lia|].
  destruct H as [|p' m' parts ns Hp' H].
  - cbn in *. rewrite app_nil_r in Hn. destruct Hn as (ps & (Hs & Ho) & ->). pose proof (min_tokens_le _ _ _ _ Hp Hs). lia.
  - destruct (min_tokens_exists ts (concat (p' :: parts)) Hu) as (k & Hk). specialize (IH _ Hk).
    change (concat (p :: p' :: parts)) with (p ++ concat (p' :: parts)) in Hn.
    pose proof (cut_cost _ _ _ _ _ Hn Hp Hk).
    change (sum (m :: m' :: ns)) with (m + sum (m' :: ns)). cbn [length] in *.
    replace (S (S (length parts)) - 1) with (S (S (length parts) - 1)) by lia. nia.
Qed.
End Bounded.

(** ** C105 *)

(** A cut costs at most [dearest * longest - 1] tokens, wherever it is made. *)
Theorem C105_cost_of_a_cut : forall ts longest dearest a b n na nb, bounds ts longest dearest ->
  min_tokens ts (a ++ b) n -> min_tokens ts a na -> min_tokens ts b nb ->
  n <= na + nb <= n + (dearest * longest - 1).
Proof. intros ts L K a b n na nb B Hn Ha Hb. split; [eapply cut_le; eassumption|eapply cut_cost; eassumption]. Qed.

(** The number of tokens counted for the samples of some data, against the number the
    data need in one piece: at most that much more for every cut. *)
Theorem C105_cost_of_sampling : forall ts longest dearest samples N n, bounds ts longest dearest -> usable ts ->
  min_total ts samples N -> min_tokens ts (concat samples) n ->
  n <= N <= n + (length samples - 1) * (dearest * longest - 1).
Proof.
  intros ts L K samples N n B Hu (ns & H & ->) Hn. split; [|eapply parts_cost; eassumption].
  exact (proj1 (cut_parts ts samples ns n Hu H Hn)).
Qed.

(** Replacing a part of a text: the number of tokens changes by no more than what the two
    parts themselves cost, and two cuts. *)
Theorem C105_local_edit : forall ts longest dearest a old new b n m, bounds ts longest dearest -> usable ts ->
  min_tokens ts (a ++ old ++ b) n -> min_tokens ts (a ++ new ++ b) m ->
  m <= n + dearest * length new + 2 * (dearest * longest - 1) /\
  n <= m + dearest * length old + 2 * (dearest * longest - 1).
Proof.
  assert (G : forall ts L K a u v b n m, bounds ts L K -> usable ts ->
    min_tokens ts (a ++ u ++ b) n -> min_tokens ts (a ++ v ++ b) m -> m <= n + K * length v + 2 * (K * L - 1)).
  { intros ts L K a u v b n m B Hu Hn Hm.
    destruct (min_tokens_exists ts a Hu) as (na & Ha). destruct (min_tokens_exists ts b Hu) as (nb & Hb).
    destruct (min_tokens_exists ts u Hu) as (nu & Hnu). destruct (min_tokens_exists ts v Hu) as (nv & Hnv).
    destruct (min_tokens_exists ts (u ++ b) Hu) as (nub & Hub). destruct (min_tokens_exists ts (v ++ b) Hu) as (nvb & Hvb).
    pose proof (cut_cost ts L K B _ _ _ _ _ Hn Ha Hub). pose proof (cut_cost ts L K B _ _ _ _ _ Hub Hnu Hb).
    pose proof (cut_le _ _ _ _ _ _ Hm Ha Hvb). pose proof (cut_le _ _ _ _ _ _ Hvb Hnv Hb).
    pose proof (min_spelled ts L K B _ _ Hnv). lia. }
  intros ts L K a u v b n m B Hu Hn Hm. split; [exact (G _ _ _ _ _ _ _ _ _ B Hu Hn Hm)|exact (G _ _ _ _ _ _ _ _ _ B Hu Hm Hn)].
Qed.

(** Appending to a text: at most [dearest * (longest - 1) - 1] tokens are saved and at
    most [dearest] tokens per byte are added. *)
Theorem C105_appending : forall ts longest dearest a b n na, bounds ts longest dearest -> usable ts ->
  min_tokens ts (a ++ b) n -> min_tokens ts a na ->
  na <= n + (dearest * (longest - 1) - 1) /\ n <= na + dearest * length b.
Proof.
  intros ts L K a b n na B Hu Hn Ha. split; [eapply prefix_cost; eassumption|].
  destruct (min_tokens_exists ts b Hu) as (nb & Hb). pose proof (cut_le _ _ _ _ _ _ Hn Ha Hb).
  pose proof (min_spelled ts L K B _ _ Hb). lia.
Qed.

(** In terms of the tokenizer: two texts that differ in one place. *)
Theorem C105_tokenizing_edited_text : forall ts tk longest dearest a old new b s buf s1 buf1 s2 buf2,
  bounds ts longest dearest -> tokenizer_new ts = Ret tk -> seqs_in_range ts -> matches ts s ->
  process_slice tk (a ++ old ++ b) s buf = Ret (s1, buf1) -> process_slice tk (a ++ new ++ b) s buf = Ret (s2, buf2) ->
  total_tokens s2 <= total_tokens s1 + dearest * length new + 2 * (dearest * longest - 1) /\
  total_tokens s1 <= total_tokens s2 + dearest * length old + 2 * (dearest * longest - 1).
Proof.
  intros ts tk L K a u v b s buf s1 b1 s2 b2 B Htk Hr M E1 E2.
  destruct (total_is_min _ _ _ _ _ _ _ Htk Hr M E1) as (M1 & L1). destruct (total_is_min _ _ _ _ _ _ _ Htk Hr M E2) as (M2 & L2).
  assert (Hu : usable ts) by (apply C01_tokenizer_exists_iff_usable; eauto).
  destruct (C105_local_edit ts L K a u v b _ _ B Hu M1 M2). lia.
Qed.

(** A longer text may need fewer tokens: the beginning of a token that is not a string of
    the set itself costs more than the token. *)
Theorem C105_longer_text_cheaper : forall ts i x y n na, usable ts ->
  (forall q, In q (sequences ts) -> seq_tokens q <> []) ->
  nth_error (tokens ts) i = Some (Str (x ++ y)) -> x <> [] -> ~ In x (strings ts) ->
  min_tokens ts (x ++ y) n -> min_tokens ts x na -> n = 1 /\ 2 <= na.
Proof.
  intros ts i x y n na (_ & Hne & _) Hq Hi Nx Hx Hn (ps & (Hs & _) & ->).
  assert (Pos : forall u m, u <> [] -> min_tokens ts u m -> 1 <= m).
  { intros u m Nu (qs & (Hqs & _) & ->). inversion Hqs as [|q r s0 r0 Hp Hr]; subst; [congruence|].
    change (stream ts (q :: r)) with (piece_tokens ts q ++ stream ts r). rewrite app_length.
    pose proof (piece_tokens_pos ts q _ Hq Hp). lia. }
  split.
  - assert (S1 : segments ts [PTok i] (x ++ y)).
    { rewrite <- (app_nil_r (x ++ y)). constructor; [|constructor]. cbn. rewrite Hi. reflexivity. }
    pose proof (min_tokens_le _ _ _ _ Hn S1) as Hl. cbn in Hl.
    assert (x ++ y <> []) by (destruct x; [congruence|discriminate]). specialize (Pos _ _ H Hn). lia.
  - inversion Hs as [|q r s0 r0 Hp Hr]; subst; [congruence|].
    inversion Hr as [|q2 r2 s2 r3 Hp2 Hr2]; subst.
    + exfalso. apply Hx. rewrite app_nil_r. apply in_strings. eauto.
    + change (stream ts (q :: q2 :: r2)) with (piece_tokens ts q ++ piece_tokens ts q2 ++ stream ts r2). rewrite !app_length.
      pose proof (piece_tokens_pos ts q _ Hq Hp). pose proof (piece_tokens_pos ts q2 _ Hq Hp2). lia.
Qed.

(** ** Sets the optimizer makes

    What a byte costs at most in a set of each type. *)
Definition dearest_byte (t : token_type) : nat :=
  match t with Bits1 => 8 | Bits2 => 4 | Bits4 => 2 | Bytes => 1 | BytesHuff => 258 end.

Lemma visited_bounds t p sp ts L : visited t p sp ts -> (forall x, In x (strings ts) -> length x <= L) -> bounds ts L (dearest_byte t).
Proof.
  intros V HL. constructor; [exact HL| |exact (visited_nonempty _ _ _ _ V)].
  intros c. destruct (vi_usable _ _ _ _ V) as (_ & _ & Hb). specialize (Hb c). apply in_strings in Hb as (q & Hq).
  exists q. split; [exact Hq|]. destruct q as [i|i]; [destruct t; cbn; lia|].
  cbn [piece_string] in Hq. cbn [piece_tokens]. destruct (nth_error (sequences ts) i) as [e|] eqn:E; [|discriminate].
  apply nth_error_In in E. destruct (vi_seqs _ _ _ _ V (denotes ts e) (in_map _ _ _ E)) as (_ & H).
  cbn [denotes snd] in H. destruct t; cbn [digits_of dearest_byte] in *; try (destruct H; fail); destruct H as (H & _); rewrite map_length in H; lia.
Qed.

(** The number of tokens an optimization reports for its samples, against the number its
    data need in one piece. *)
Theorem C105_reported_tokens : forall threads total samples init order clock n p t pre rounds m s longest whole,
  1 <= threads -> ~ In [] samples -> shuffles order -> supported t n -> good_start n p t pre ->
  round_bound samples n <= rounds ->
  optimizing threads total samples init order clock n p t pre rounds m -> returned m s ->
  (forall x, In x (strings (st_token_set s)) -> length x <= longest) ->
  min_tokens (st_token_set s) (concat samples) whole ->
  whole <= total_tokens s <= whole + (length samples - 1) * (dearest_byte t * longest - 1).
Proof.
  intros threads total samples init order clock n p t pre rounds m s L whole Ht Hne Ho Hs Hp Hr M R HL Hw.
  destruct (C44_result_within_budget _ _ _ _ _ _ _ _ _ _ _ _ Ht Hne Ho Hs Hp Hr M) as (_ & H).
  destruct (H s R) as (_ & G & Hm). destruct G as (sp & V & _).
  apply (C105_cost_of_sampling (st_token_set s) L (dearest_byte t) samples); [eapply visited_bounds; eassumption|apply (vi_usable _ _ _ _ V)|exact Hm|exact Hw].
Qed.

(** Bytes and the token "abc": strings of up to 3 bytes, one token per byte.  The cut in
    "a" | "bc" costs as much as the bound allows, and "ab" is dearer than "abc". *)
Definition abc_set (ts : tokenset) : tokenset := add_token_unchecked ts [x61; x62; x63].

Lemma abc_bounds ts : usable ts -> sequences ts = [] -> (forall x, In x (strings ts) -> length x = 1) -> bounds (abc_set ts) 3 1.
Proof.
  intros (Hnd & Hne & Hb) Hs H1. assert (Es : sequences (abc_set ts) = []) by (unfold abc_set, add_token_unchecked; cbn [sequences]; rewrite Hs; reflexivity).
  constructor.
  - intros x Hx. apply in_strings_add in Hx as [Hx|Hx]; [specialize (H1 _ Hx); lia|rewrite Hx; cbn; lia].
  - intros c. assert (Hin : In [c] (strings (abc_set ts))) by (apply in_strings_add; left; apply Hb).
    apply in_strings in Hin as (p & Hp). exists p. split; [exact Hp|]. destruct p as [i|i]; [cbn; lia|].
    unfold piece_string in Hp. rewrite Es in Hp. destruct i; discriminate.
  - rewrite Es. intros q [].
Qed.

Example C105_hypotheses_met : exists ts tk i n na nb nab, bounds ts 3 1 /\ usable ts /\ tokenizer_new ts = Ret tk /\ seqs_in_range ts /\
  matches ts (stats_new ts None) /\ nth_error (tokens ts) i = Some (Str ([x61; x62] ++ [x63])) /\ ~ In [x61; x62] (strings ts) /\
  min_tokens ts ([x61] ++ [x62; x63]) n /\ min_tokens ts [x61] na /\ min_tokens ts [x62; x63] nb /\ min_tokens ts [x61; x62] nab /\
  n = 1 /\ na + nb = n + (1 * 3 - 1) /\ nab = 2.
Proof.
  assert (U0 : usable (new_bytes Raw)) by (rewrite new_bytes_eq; apply usable_bytes_set).
  assert (S0 : sequences (new_bytes Raw) = []) by (rewrite new_bytes_eq; reflexivity).
  assert (L0 : forall x, In x (strings (new_bytes Raw)) -> length x = 1).
  { rewrite new_bytes_eq, strings_bytes_set. intros x Hx. apply in_map_iff in Hx as (c & <- & _). reflexivity. }
  revert U0 S0 L0. generalize (new_bytes Raw). intros t0 U0 S0 L0.
  pose proof (abc_bounds t0 U0 S0 L0) as B. set (ts := abc_set t0) in *.
  assert (Hs : forall x, In x (strings ts) <-> In x (strings t0) \/ x = [x61; x62; x63]) by (intros x; apply in_strings_add).
  assert (U : usable ts).
  { apply usable_add; [exact U0|discriminate|]. intros H. apply in_str_tokens in H.
    assert (Hin : In [x61; x62; x63] (strings t0)).
    { unfold strings. apply in_app_iff. left. apply in_flat_map. exists (Str [x61; x62; x63]). split; [exact H|left; reflexivity]. }
    specialize (L0 _ Hin). discriminate. }
  assert (Es : sequences ts = []) by (unfold ts, abc_set, add_token_unchecked; cbn [sequences]; rewrite S0; reflexivity).
  assert (Hq : forall q, In q (sequences ts) -> seq_tokens q <> []) by (rewrite Es; intros q []).
  destruct (usable_tokenizer ts U) as (tk & Htk).
  destruct (min_tokens_exists ts ([x61] ++ [x62; x63]) U) as (n & Hn). destruct (min_tokens_exists ts [x61] U) as (na & Ha).
  destruct (min_tokens_exists ts [x62; x63] U) as (nb & Hb). destruct (min_tokens_exists ts [x61; x62] U) as (nab & Hab).
  assert (Hi : nth_error (tokens ts) (length (tokens t0)) = Some (Str ([x61; x62] ++ [x63]))).
  { unfold ts, abc_set, add_token_unchecked; cbn [tokens]. rewrite nth_error_app2, Nat.sub_diag by lia. reflexivity. }
  assert (Nab : ~ In [x61; x62] (strings ts)) by (rewrite Hs; intros [H|H]; [specialize (L0 _ H); discriminate|discriminate]).
  destruct (C105_longer_text_cheaper ts _ [x61; x62] [x63] n nab U Hq Hi ltac:(discriminate) Nab Hn Hab) as (E1 & G2).
  pose proof (min_spelled ts 3 1 B _ _ Hab) as J. cbn [length] in J.
  assert (Pos : forall u m, u <> [] -> min_tokens ts u m -> 1 <= m).
  { intros u m Nu (qs & (Hqs & _) & ->). inversion Hqs as [|q r s0 r0 Hp Hr]; subst; [congruence|].
    change (stream ts (q :: r)) with (piece_tokens ts q ++ stream ts r). rewrite app_length.
    pose proof (piece_tokens_pos ts q _ Hq Hp). lia. }
  pose proof (Pos [x61] _ ltac:(discriminate) Ha). pose proof (min_spelled ts 3 1 B _ _ Ha) as Ja. cbn [length] in Ja.
  assert (Hb2 : 2 <= nb).
  { destruct Hb as (ps & (Sb & _) & ->). inversion Sb as [|q r s0 r0 Hp Hr]; subst. inversion Hr as [|q2 r2 s2 r3 Hp2 Hr2]; subst.
    - assert (Hin : In [x62; x63] (strings ts)).
      { apply in_strings. exists q. rewrite Hp. f_equal. match goal with E : _ ++ [] = [x62; x63] |- _ => rewrite app_nil_r in E; exact E end. }
      apply Hs in Hin as [Hin|Hin]; [specialize (L0 _ Hin); discriminate L0|discriminate Hin].
    - change (stream ts (q :: q2 :: r2)) with (piece_tokens ts q ++ piece_tokens ts q2 ++ stream ts r2). rewrite !app_length.
      pose proof (piece_tokens_pos ts q _ Hq Hp). pose proof (piece_tokens_pos ts q2 _ Hq Hp2). lia. }
  pose proof (min_spelled ts 3 1 B _ _ Hb) as Jb. cbn [length] in Jb.
  exists ts, tk, (length (tokens t0)), n, na, nb, nab. split; [exact B|]. split; [exact U|]. split; [exact Htk|].
  split; [intros q t Hin; rewrite Es in Hin; destruct Hin|]. split; [apply matches_new|]. split; [exact Hi|]. split; [exact Nab|].
  repeat (split; [assumption|]). lia.
Qed.
