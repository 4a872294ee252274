(** * The BPE step and the validity check. *)
From Coq Require Import ZArith.
From Verif Require Import Base BaseLemmas TokenSetModel TokenizerModel TokSpec SortLemmas TokenizerProof1 TokenizerProof2
  TokenizerTheory TokenSetProof TokenSetProof2 OptBytesModel OptimizeModel OptimizeProof1.

(** ** The validity check *)

(** Some byte other than a newline directly follows two newlines. *)
Definition breaks (s : bstr) : Prop := exists u c v, s = u ++ x0a :: x0a :: c :: v /\ c <> x0a.

Lemma breaks_at s : breaks s <-> exists i c, nth_error s i = Some x0a /\ nth_error s (i + 1) = Some x0a /\
  nth_error s (i + 2) = Some c /\ c <> x0a.
Proof.
  split.
  - intros (u & c & v & -> & H). exists (length u), c. rewrite !nth_error_app2 by lia.
    replace (length u + 1 - length u) with 1 by lia. replace (length u + 2 - length u) with 2 by lia.
    rewrite Nat.sub_diag. auto.
  - intros (i & c & H1 & H2 & H3 & Hc). revert i H1 H2 H3. induction s as [|x s IH]; intros [|i] H1 H2 H3; try discriminate.
    + cbn in H1, H2, H3. injection H1 as ->. destruct s as [|y s]; [discriminate|]. cbn in H2. injection H2 as ->.
      destruct s as [|z s]; [discriminate|]. cbn in H3. injection H3 as ->. exists [], c, s. auto.
    + destruct (IH i H1 H2 H3) as (u & c' & v & E & Hc'). exists (x :: u), c', v. split; [cbn; f_equal; exact E|exact Hc'].
Qed.

Lemma valid_loop_spec s : forall k i, k + i + 2 <= length s ->
  exists r, valid_loop s (seq i k) = Ret r /\
  (r = false <-> exists j c, i <= j < i + k /\ nth_error s j = Some x0a /\ nth_error s (j + 1) = Some x0a /\
    nth_error s (j + 2) = Some c /\ c <> x0a).
Proof.
  induction k as [|k IH]; intros i Hk; cbn [seq valid_loop].
  - exists true. split; [reflexivity|]. split; [discriminate|]. intros (j & c & H & _). lia.
  - destruct (nth_error s i) as [a|] eqn:Ea; [|apply nth_error_None in Ea; lia].
    destruct (nth_error s (i + 1)) as [b|] eqn:Eb; [|apply nth_error_None in Eb; lia].
    destruct (nth_error s (i + 2)) as [c|] eqn:Ec; [|apply nth_error_None in Ec; lia].
    rewrite (proj2 (idx_ret s i a) Ea), (proj2 (idx_ret s _ b) Eb), (proj2 (idx_ret s _ c) Ec). cbn [bind].
    destruct (IH (S i)) as (r & Er & Hr); [lia|].
    destruct (Byte.eqb a x0a && Byte.eqb b x0a && negb (Byte.eqb c x0a)) eqn:T.
    + exists false. split; [reflexivity|]. split; [intros _|reflexivity].
      apply andb_true_iff in T as (T & T3). apply andb_true_iff in T as (T1 & T2).
      apply byte_eqb_eq in T1, T2. subst. exists i, c. split; [lia|]. repeat (split; [assumption|]).
      intros ->. rewrite (proj2 (byte_eqb_eq x0a x0a) eq_refl) in T3. discriminate.
    + exists r. split; [exact Er|]. rewrite Hr. split; intros (j & c' & Hj & H1 & H2 & H3 & Hc').
      * exists j, c'. split; [lia|auto].
      * exists j, c'. split; [|auto]. destruct (Nat.eq_dec j i) as [->|]; [exfalso|lia].
        rewrite Ea in H1. rewrite Eb in H2. rewrite Ec in H3. injection H1 as ->. injection H2 as ->. injection H3 as ->.
        rewrite (proj2 (byte_eqb_eq x0a x0a) eq_refl) in T. cbn in T. apply negb_false_iff, byte_eqb_eq in T. contradiction.
Qed.

Lemma is_valid_spec s : 2 <= length s -> exists r, is_valid_token s = Ret r /\ (r = false <-> breaks s).
Proof.
  intros H. unfold is_valid_token. rewrite checked_sub_le by exact H. cbn [bind].
  destruct (valid_loop_spec s (length s - 2) 0) as (r & E & Hr); [lia|]. exists r. split; [exact E|].
  rewrite Hr, breaks_at. split; intros (j & c & R).
  - destruct R as (_ & R). exists j, c. exact R.
  - exists j, c. split; [|exact R]. destruct R as (_ & _ & R & _).
    assert (j + 2 < length s) by (apply nth_error_Some; congruence). lia.
Qed.

Lemma is_valid_short s : length s < 2 -> is_valid_token s = Panic.
Proof. intros H. destruct s as [|? [|? ?]]; cbn in H; try reflexivity. lia. Qed.

(** ** Adjacent tokens of an optimal segmentation *)
Lemma adj_pos i j ps : 0 < adj i j ps -> exists l r, ps = l ++ PTok i :: PTok j :: r.
Proof.
  induction ps as [|p ps IH]; cbn [adj]; [lia|]. intros H.
  assert (G : 0 < adj i j ps -> exists l r, p :: ps = l ++ PTok i :: PTok j :: r).
  { intros H'. destruct (IH H') as (l & r & ->). exists (p :: l), r. reflexivity. }
  destruct p as [a|]; [|auto]. destruct ps as [|[b|] ps']; [auto| |auto].
  destruct ((a =? i) && (b =? j)) eqn:E; [|auto]. apply andb_true_iff in E as (E1 & E2).
  apply Nat.eqb_eq in E1, E2. subst. exists [], ps'. reflexivity.
Qed.

Lemma segments_app_inv ts ps qs text : segments ts (ps ++ qs) text ->
  exists u v, text = u ++ v /\ segments ts ps u /\ segments ts qs v.
Proof.
  revert text. induction ps as [|p ps IH]; intros text H; cbn in H.
  - exists [], text. split; [reflexivity|]. split; [constructor|exact H].
  - inversion H; subst. destruct (IH _ H4) as (u & v & -> & H5 & H6).
    exists (s ++ u), v. split; [apply app_assoc|]. split; [constructor; assumption|exact H6].
Qed.

Lemma segments_app ts ps qs u v : segments ts ps u -> segments ts qs v -> segments ts (ps ++ qs) (u ++ v).
Proof. induction 1 as [|p ps s r Hp _ IH]; intros H; cbn; [exact H|]. rewrite <- app_assoc. constructor; auto. Qed.

Lemma pair_new ts l i j r text : optimal ts (l ++ PTok i :: PTok j :: r) text ->
  exists s1 s2, nth_error (tokens ts) i = Some (Str s1) /\ nth_error (tokens ts) j = Some (Str s2) /\
  forall p, piece_string ts p = Some (s1 ++ s2) -> 2 <= length (piece_tokens ts p).
Proof.
  intros (Hs & Ho). apply segments_app_inv in Hs as (u & v & -> & Hu & Hv).
  inversion Hv; subst. inversion H3; subst. cbn in H1, H2.
  destruct (nth_error (tokens ts) i) as [[s1|]|] eqn:E1; try discriminate. injection H1 as ->.
  destruct (nth_error (tokens ts) j) as [[s2|]|] eqn:E2; try discriminate. injection H2 as ->.
  exists s, s0. split; [reflexivity|]. split; [reflexivity|]. intros p Hp.
  assert (Hq : segments ts (l ++ p :: r) (u ++ s ++ s0 ++ r1)).
  { apply segments_app; [exact Hu|]. rewrite app_assoc. constructor; assumption. }
  specialize (Ho _ Hq). unfold stream in Ho. rewrite !flat_map_app, !app_length in Ho. cbn [flat_map piece_tokens] in Ho.
  cbn [app length] in Ho. rewrite app_length in Ho. lia.
Qed.

(** ** The loop over the pairs *)

(** [candidate ts pss x c]: [x] is the concatenation of two tokens that follow
    each other [c > 0] times in the segmentations. *)
Definition candidate (ts : tokenset) (pss : list (list piece)) (x : bstr) (c : nat) : Prop :=
  exists i j s1 s2, nth_error (tokens ts) i = Some (Str s1) /\ nth_error (tokens ts) j = Some (Str s2) /\
    x = s1 ++ s2 /\ c = sum (map (adj i j) pss) /\ 0 < c.

Lemma sum_pos_in l : 0 < sum l -> exists x, In x l /\ 0 < x.
Proof.
  unfold sum. induction l as [|x l IH]; cbn; [lia|]. intros H. destruct x as [|x].
  - destruct IH as (y & Hy & H'); [exact H|]. eauto.
  - exists (S x). split; [auto|lia].
Qed.

Section Bpe.
Variables (ts : tokenset) (samples : list bstr) (pss : list (list piece)) (s : stats).
Hypothesis Hta : tallied ts samples pss s.
Hypothesis Hpa : pairs_tallied ts pss s.
Hypothesis Hus : usable ts.

Let n := ntokens ts.
Let cnt (p : nat) := nth p (pair_counts s) 0.

Lemma pair_index p : 0 < cnt p -> p / n < n /\ p mod n < n /\ cnt p = sum (map (adj (p / n) (p mod n)) pss) /\ p < length (pair_counts s).
Proof.
  intros H. destruct Hpa as (Hl & Hp).
  assert (Hlt : p < n * n).
  { fold n in Hl. rewrite <- Hl. unfold cnt in H. destruct (Nat.lt_ge_cases p (length (pair_counts s))) as [|G]; [assumption|].
    rewrite (nth_overflow _ _ G) in H. lia. }
  assert (n <> 0) by (intros E; rewrite E in Hlt; lia).
  assert (H1 : p / n < n) by (apply Nat.div_lt_upper_bound; assumption).
  assert (H2 : p mod n < n) by (apply Nat.mod_upper_bound; assumption).
  split; [exact H1|]. split; [exact H2|]. split; [|fold n in Hl; lia]. rewrite <- Hp by assumption.
  unfold cnt. f_equal. fold n. rewrite (Nat.mul_comm (p / n)). apply Nat.div_mod; assumption.
Qed.

Lemma followed i j : 0 < sum (map (adj i j) pss) -> exists l r text, optimal ts (l ++ PTok i :: PTok j :: r) text.
Proof.
  intros H. apply sum_pos_in in H as (k & Hk & Hp). apply in_map_iff in Hk as (ps & <- & Hps).
  destruct (adj_pos _ _ _ Hp) as (l & r & ->).
  apply In_nth_error in Hps as (m & Hm). destruct (Forall2_nth _ _ _ (ta_opt _ _ _ _ Hta) _ _ Hm) as (x & _ & Hx). eauto.
Qed.

Lemma candidate_pair p : 0 < cnt p -> exists s1 s2,
  nth_error (tokens ts) (p / n) = Some (Str s1) /\ nth_error (tokens ts) (p mod n) = Some (Str s2) /\
  s1 <> [] /\ s2 <> [].
Proof.
  intros H. destruct (pair_index p H) as (_ & _ & E & _). rewrite E in H.
  destruct (followed _ _ H) as (l & r & text & Ho). destruct (pair_new _ _ _ _ _ _ Ho) as (s1 & s2 & E1 & E2 & _).
  assert (G : forall i x, nth_error (tokens ts) i = Some (Str x) -> x <> []).
  { intros i x Hx ->. destruct Hus as (_ & Hne & _). apply Hne. unfold strings. apply in_app_iff. left.
    apply in_flat_map. exists (Str []). split; [eapply nth_error_In; exact Hx|left; reflexivity]. }
  exists s1, s2. split; [exact E1|]. split; [exact E2|]. eauto.
Qed.

Lemma bpe_loop_ok : forall pairs nt, (forall p, In p pairs -> 0 < cnt p) ->
  StronglySorted (fun x y => cnt y <= cnt x) pairs ->
  exists x c, bpe_loop s pairs nt = Ret (x, c) /\
   ((pairs = [] /\ x = nt /\ c = 0) \/
    ((exists k, candidate ts pss x k) /\
     ((~ breaks x /\ candidate ts pss x c /\
       forall p s1 s2, In p pairs -> nth_error (tokens ts) (p / n) = Some (Str s1) ->
         nth_error (tokens ts) (p mod n) = Some (Str s2) -> ~ breaks (s1 ++ s2) -> cnt p <= c) \/
      (breaks x /\ c = 0 /\
       forall p s1 s2, In p pairs -> nth_error (tokens ts) (p / n) = Some (Str s1) ->
         nth_error (tokens ts) (p mod n) = Some (Str s2) -> breaks (s1 ++ s2))))).
Proof.
  induction pairs as [|p pairs IH]; intros nt Hpos Hs; cbn [bpe_loop].
  - exists nt, 0. auto.
  - inversion Hs as [|? ? Hs' Hx]; subst. rewrite Forall_forall in Hx.
    assert (Hp : 0 < cnt p) by (apply Hpos; left; reflexivity).
    destruct (candidate_pair p Hp) as (s1 & s2 & E1 & E2 & N1 & N2).
    destruct (pair_index p Hp) as (_ & _ & Ec & Hlt).
    rewrite (ta_set _ _ _ _ Hta). fold n.
    rewrite (proj2 (idx_ret _ _ _) E1), (proj2 (idx_ret _ _ _) E2). cbn [bind].
    assert (Hl : 2 <= length (s1 ++ s2)).
    { rewrite app_length. destruct s1; [congruence|]. destruct s2; [congruence|]. cbn; lia. }
    destruct (is_valid_spec _ Hl) as (v & Ev & Hv). rewrite Ev. cbn [bind].
    assert (Hc : candidate ts pss (s1 ++ s2) (cnt p)).
    { exists (p / n), (p mod n), s1, s2. repeat (split; [assumption || reflexivity|]). exact Hp. }
    destruct v.
    + assert (Ei : idx (pair_counts s) p = Ret (cnt p)) by (apply idx_ret, nth_error_nth'; exact Hlt).
      rewrite Ei. cbn [bind]. exists (s1 ++ s2), (cnt p). split; [reflexivity|]. right. split; [eauto|]. left.
      split; [intros B; apply Hv in B; discriminate|]. split; [exact Hc|].
      intros p' t1 t2 [<-|Hi] _ _ _; [lia|]. apply Hx; exact Hi.
    + destruct (IH (s1 ++ s2)) as (x & c & E & R); [intros q Hq; apply Hpos; right; exact Hq|exact Hs'|].
      exists x, c. split; [exact E|]. right.
      assert (B : breaks (s1 ++ s2)) by (apply Hv; reflexivity).
      destruct R as [(-> & -> & ->)|(Hk & [(R1 & R2 & R3)|(R1 & R2 & R3)])].
      * split; [eauto|]. right. split; [exact B|]. split; [reflexivity|].
        intros p' t1 t2 [<-|[]] H1 H2. rewrite E1 in H1. rewrite E2 in H2. injection H1 as <-. injection H2 as <-. exact B.
      * split; [exact Hk|]. left. split; [exact R1|]. split; [exact R2|]. intros p' t1 t2 [<-|Hi] H1 H2 Hb; [|eauto].
        rewrite E1 in H1. rewrite E2 in H2. injection H1 as <-. injection H2 as <-. contradiction.
      * split; [exact Hk|]. right. split; [exact R1|]. split; [exact R2|]. intros p' t1 t2 [<-|Hi] H1 H2; [|eauto].
        rewrite E1 in H1. rewrite E2 in H2. injection H1 as <-. injection H2 as <-. exact B.
Qed.

Lemma candidate_new x c : candidate ts pss x c -> 2 <= length x /\ ~ In (Str x) (tokens ts) /\
  forall p, piece_string ts p = Some x -> 2 <= length (piece_tokens ts p).
Proof.
  intros (i & j & s1 & s2 & E1 & E2 & -> & -> & Hp). destruct (followed _ _ Hp) as (l & r & text & Ho).
  destruct (pair_new _ _ _ _ _ _ Ho) as (t1 & t2 & F1 & F2 & Hn).
  rewrite E1 in F1. injection F1 as <-. rewrite E2 in F2. injection F2 as <-.
  assert (G : forall i x, nth_error (tokens ts) i = Some (Str x) -> x <> []).
  { intros k x Hx ->. destruct Hus as (_ & Hne & _). apply Hne. unfold strings. apply in_app_iff. left.
    apply in_flat_map. exists (Str []). split; [eapply nth_error_In; exact Hx|left; reflexivity]. }
  split; [|split; [|exact Hn]].
  - rewrite app_length. pose proof (G _ _ E1). pose proof (G _ _ E2). destruct s1; [congruence|]. destruct s2; [congruence|]. cbn; lia.
  - intros Hi. apply In_nth_error in Hi as (k & Hk). specialize (Hn (PTok k)). cbn in Hn. rewrite Hk in Hn. specialize (Hn eq_refl). lia.
Qed.

(** What a BPE step does. *)
Lemma add_token_bpe_ok :
  (add_token_bpe s = Ret None /\ forall x c, ~ candidate ts pss x c) \/
  exists x c, add_token_bpe s = Ret (Some (add_token_unchecked ts x, c)) /\ (exists k, candidate ts pss x k) /\
    ((~ breaks x /\ candidate ts pss x c /\ forall y k, candidate ts pss y k -> ~ breaks y -> k <= c) \/
     (breaks x /\ c = 0 /\ forall y k, candidate ts pss y k -> breaks y)).
Proof.
  set (pairs := stable_sort (fun x y => cnt y <=? cnt x) (filter (fun i => 0 <? cnt i) (seq 0 (length (pair_counts s))))).
  assert (Hin : forall p, In p pairs <-> 0 < cnt p).
  { intros p. unfold pairs. rewrite (Permutation_in' eq_refl (sort_perm _ _)). rewrite filter_In, Nat.ltb_lt, in_seq.
    split; [tauto|]. intros H. split; [|exact H]. destruct (pair_index p H) as (_ & _ & _ & G). lia. }
  assert (Hs : StronglySorted (fun x y => cnt y <= cnt x) pairs).
  { unfold pairs. assert (G : StronglySorted (fun x y => (cnt y <=? cnt x) = true) pairs).
    { apply sort_sorted; intros; rewrite ?Nat.leb_le in *; lia. }
    fold pairs. clear -G. induction G as [|x l _ IH Hx]; constructor; [exact IH|]. eapply Forall_impl; [|exact Hx].
    intros y Hy. apply Nat.leb_le; exact Hy. }
  destruct (bpe_loop_ok pairs [] (fun p => proj1 (Hin p)) Hs) as (x & c & E & R).
  assert (Hall : forall y k, candidate ts pss y k -> exists p s1 s2, In p pairs /\
     nth_error (tokens ts) (p / n) = Some (Str s1) /\ nth_error (tokens ts) (p mod n) = Some (Str s2) /\ y = s1 ++ s2 /\ cnt p = k).
  { intros y k (i & j & s1 & s2 & E1 & E2 & -> & -> & Hk).
    assert (Hi : i < n) by (apply nth_error_Some; congruence). assert (Hj : j < n) by (apply nth_error_Some; congruence).
    assert (Ek : cnt (i * n + j) = sum (map (adj i j) pss)) by (apply Hpa; assumption).
    assert (D : (i * n + j) / n = i) by (rewrite Nat.div_add_l by lia; rewrite Nat.div_small by lia; lia).
    assert (M : (i * n + j) mod n = j) by (rewrite Nat.add_comm, Nat.mod_add by lia; apply Nat.mod_small; lia).
    exists (i * n + j), s1, s2. rewrite D, M. split; [apply Hin; lia|]. auto. }
  unfold add_token_bpe. change (stable_sort _ _) with pairs. rewrite E. cbn [bind].
  destruct R as [(E0 & -> & ->)|(Hk & R)].
  - left. split; [reflexivity|]. intros y k Hc. destruct (Hall y k Hc) as (p & _ & _ & Hp & _). rewrite E0 in Hp. destruct Hp.
  - right. exists x, c. destruct Hk as (k & Hk). destruct (candidate_new _ _ Hk) as (Hl & _ & _).
    rewrite (proj2 (bstr_eqb_neq x [])) by (intros ->; cbn in Hl; lia).
    unfold add_token. rewrite (proj2 (bstr_eqb_neq x [])) by (intros ->; cbn in Hl; lia). cbn [negb assert_that bind].
    rewrite (ta_set _ _ _ _ Hta). split; [reflexivity|]. split; [eauto|].
    destruct R as [(R1 & R2 & R3)|(R1 & R2 & R3)]; [left|right].
    + split; [exact R1|]. split; [exact R2|]. intros y m Hc Hb. destruct (Hall y m Hc) as (p & s1 & s2 & Hp & E1 & E2 & -> & <-). eauto.
    + split; [exact R1|]. split; [exact R2|]. intros y m Hc. destruct (Hall y m Hc) as (p & s1 & s2 & Hp & E1 & E2 & -> & <-). eauto.
Qed.
End Bpe.
