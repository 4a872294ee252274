(** * Properties C64, C65: which pair a BPE step joins, and what joining saves. *)
From Coq Require Import ZArith.
From Verif Require Import Base BaseLemmas TokenSetModel TokenizerModel TokSpec SortLemmas TokenizerProof1 TokenizerProof2
  TokenizerTheory TokenSetProof TokenSetProof2 PropTokenizer PropTokenSet StatsAlgebra BatchModel PropBatch
  PropJson Shaped CacheModel PropCache OptBytesModel OptBytesProof OptBytesProof2
  OptBytesProof3 OptBytesProof4 PropOptBytes OptimizeModel OptimizeProof1 OptimizeProof2 OptimizeProof3 OptimizeProof4
  OptimizeProof5 OptimizeProof6 OptimizeProof7 OptimizeProof8 PropOptimize.

(** ** Specification *)

(** [joins s i j x k]: the tokens with numbers [i] and [j] are strings, [x] is
    their concatenation, and the statistics count [k > 0] places where [j]
    directly follows [i]. *)
Definition joins (s : stats) (i j : nat) (x : bstr) (k : nat) : Prop :=
  let ts := st_token_set s in
  exists a b, nth_error (tokens ts) i = Some (Str a) /\ nth_error (tokens ts) j = Some (Str b) /\
    x = a ++ b /\ nth_error (pair_counts s) (i * ntokens ts + j) = Some k /\ 0 < k.

(** The paragraph rule: no blank line followed by something else. *)
Definition keeps_rule (x : bstr) : Prop :=
  ~ exists u c w r, x = u ++ [x0a; x0a] ++ w ++ c :: r /\ c <> x0a.

(** Preference: more frequent pairs first, then smaller numbers. *)
Definition preferred (i j k i' j' k' : nat) : Prop :=
  k' < k \/ k = k' /\ (i < i' \/ i = i' /\ j <= j').

(** ** The order of the candidates *)
Section Order.
Variable cnt : nat -> nat.
Let leb x y := cnt y <=? cnt x.
Definition pref p q : Prop := cnt q < cnt p \/ cnt p = cnt q /\ p < q.

Lemma insert_pref x l : StronglySorted pref l -> Forall (fun y => x < y) l -> StronglySorted pref (insert_stable leb x l).
Proof.
  induction 1 as [|y l Hl IH Hy]; intros Hx; cbn; [repeat constructor|]. inversion Hx as [|? ? Hxy Hxl]; subst.
  unfold leb at 1. destruct (Nat.leb_spec (cnt y) (cnt x)) as [H|H].
  - constructor; [constructor; assumption|]. constructor.
    + unfold pref. lia.
    + rewrite Forall_forall in *. intros z Hz. specialize (Hy z Hz). specialize (Hxl z Hz). unfold pref in *. lia.
  - constructor; [apply IH; exact Hxl|]. apply Forall_forall. intros z Hz.
    apply (Permutation_in _ (insert_perm leb x l)) in Hz as [<-|Hz]; [unfold pref; lia|].
    rewrite Forall_forall in Hy. apply Hy; exact Hz.
Qed.

Lemma sort_pref l : StronglySorted lt l -> StronglySorted pref (stable_sort leb l).
Proof.
  induction 1 as [|x l Hl IH Hx]; cbn; [constructor|]. apply insert_pref; [exact IH|].
  apply Forall_forall. intros y Hy. apply (Permutation_in _ (sort_perm leb l)) in Hy.
  rewrite Forall_forall in Hx. apply Hx; exact Hy.
Qed.
End Order.

Lemma sorted_filter {A} (R : A -> A -> Prop) f l : StronglySorted R l -> StronglySorted R (filter f l).
Proof.
  induction 1 as [|x l Hl IH Hx]; cbn; [constructor|]. destruct (f x); [|exact IH].
  constructor; [exact IH|]. rewrite Forall_forall in *. intros y Hy. apply filter_In in Hy as (Hy & _). auto.
Qed.
Lemma sorted_seq a n : StronglySorted lt (seq a n).
Proof.
  revert a; induction n as [|n IH]; intros a; cbn; constructor; [apply IH|].
  apply Forall_forall. intros y Hy. apply in_seq in Hy. lia.
Qed.

Section Choice.
Variables (ts : tokenset) (samples : list bstr) (pss : list (list piece)) (s : stats).
Hypothesis Hta : tallied ts samples pss s.
Hypothesis Hpa : pairs_tallied ts pss s.
Hypothesis Hus : usable ts.

Let n := ntokens ts.
Let cnt (p : nat) := nth p (pair_counts s) 0.
Let pairs := stable_sort (fun x y => cnt y <=? cnt x) (filter (fun i => 0 <? cnt i) (seq 0 (length (pair_counts s)))).

Lemma in_pairs p : In p pairs <-> 0 < cnt p.
Proof.
  unfold pairs. rewrite (Permutation_in' eq_refl (sort_perm _ _)). rewrite filter_In, Nat.ltb_lt, in_seq.
  split; [tauto|]. intros H. split; [|exact H]. destruct (pair_index ts pss s Hpa p H) as (_ & _ & _ & G). lia.
Qed.
Lemma pairs_sorted : StronglySorted (pref cnt) pairs.
Proof. apply sort_pref, sorted_filter, sorted_seq. Qed.

Lemma joins_iff i j x k : joins s i j x k <-> exists p, In p pairs /\ i = p / n /\ j = p mod n /\ k = cnt p /\
  exists a b, nth_error (tokens ts) i = Some (Str a) /\ nth_error (tokens ts) j = Some (Str b) /\ x = a ++ b.
Proof.
  unfold joins. rewrite (ta_set _ _ _ _ Hta). fold n. split.
  - intros (a & b & E1 & E2 & -> & Hk & Hp).
    assert (Hi : i < n) by (apply nth_error_Some; congruence). assert (Hj : j < n) by (apply nth_error_Some; congruence).
    assert (D : (i * n + j) / n = i) by (rewrite Nat.div_add_l by lia; rewrite Nat.div_small by lia; lia).
    assert (M : (i * n + j) mod n = j) by (rewrite Nat.add_comm, Nat.mod_add by lia; apply Nat.mod_small; lia).
    assert (Ec : cnt (i * n + j) = k) by (apply nth_error_nth; exact Hk).
    exists (i * n + j). rewrite D, M. split; [apply in_pairs; lia|]. repeat (split; [auto|]). eauto.
  - intros (p & Hp & -> & -> & -> & a & b & E1 & E2 & ->). apply in_pairs in Hp.
    destruct (pair_index ts pss s Hpa p Hp) as (_ & H2 & _ & Hlt). fold n in H2.
    exists a, b. repeat (split; [assumption || reflexivity|]). split; [|exact Hp].
    replace (p / n * n + p mod n) with p; [apply nth_error_nth'; exact Hlt|].
    rewrite (Nat.mul_comm (p / n)). apply Nat.div_mod. lia.
Qed.

Lemma loop_cons p rest nt : 0 < cnt p -> exists a b,
  nth_error (tokens ts) (p / n) = Some (Str a) /\ nth_error (tokens ts) (p mod n) = Some (Str b) /\
  (keeps_rule (a ++ b) -> bpe_loop s (p :: rest) nt = Ret (a ++ b, cnt p)) /\
  (~ keeps_rule (a ++ b) -> bpe_loop s (p :: rest) nt = bpe_loop s rest (a ++ b)) /\
  2 <= length (a ++ b) /\ (keeps_rule (a ++ b) \/ ~ keeps_rule (a ++ b)).
Proof.
  intros Hp. destruct (candidate_pair ts samples pss s Hta Hpa Hus p Hp) as (a & b & E1 & E2 & N1 & N2).
  destruct (pair_index ts pss s Hpa p Hp) as (_ & _ & _ & Hlt).
  exists a, b. split; [exact E1|]. split; [exact E2|].
  assert (Hl : 2 <= length (a ++ b)).
  { rewrite app_length. destruct a; [congruence|]. destruct b; [congruence|]. cbn; lia. }
  destruct (C40_paragraph_rule _ Hl) as (v & Ev & Hv). fold (keeps_rule (a ++ b)) in Hv.
  cbn [bpe_loop]. rewrite (ta_set _ _ _ _ Hta).
  rewrite (proj2 (idx_ret _ _ _) E1), (proj2 (idx_ret _ _ _) E2). cbn [bind]. rewrite Ev. cbn [bind].
  assert (Ei : idx (pair_counts s) p = Ret (cnt p)) by (apply idx_ret, nth_error_nth'; exact Hlt).
  rewrite Ei. cbn [bind]. split; [|split; [|split; [exact Hl|]]].
  - intros K. rewrite (proj2 Hv K). reflexivity.
  - intros K. destruct v; [exfalso; apply K, Hv; reflexivity|reflexivity].
  - destruct v; [left; apply Hv; reflexivity|right; intros K; apply Hv in K; discriminate].
Qed.

(** The choice, for any list of candidates *)
Lemma loop_choice l nt : (forall p, In p l -> 0 < cnt p) -> StronglySorted (pref cnt) l ->
  exists x c, bpe_loop s l nt = Ret (x, c) /\
  ((l = [] /\ x = nt /\ c = 0) \/
   (exists p a b, In p l /\ nth_error (tokens ts) (p / n) = Some (Str a) /\ nth_error (tokens ts) (p mod n) = Some (Str b) /\
      x = a ++ b /\ c = cnt p /\ keeps_rule x /\
      forall p' a' b', In p' l -> nth_error (tokens ts) (p' / n) = Some (Str a') -> nth_error (tokens ts) (p' mod n) = Some (Str b') ->
        keeps_rule (a' ++ b') -> p' = p \/ pref cnt p p') \/
   (exists p a b, In p l /\ nth_error (tokens ts) (p / n) = Some (Str a) /\ nth_error (tokens ts) (p mod n) = Some (Str b) /\
      x = a ++ b /\ c = 0 /\
      forall p' a' b', In p' l -> nth_error (tokens ts) (p' / n) = Some (Str a') -> nth_error (tokens ts) (p' mod n) = Some (Str b') ->
        ~ keeps_rule (a' ++ b') /\ (p' = p \/ pref cnt p' p))).
Proof.
  revert nt. induction l as [|p l IH]; intros nt Hpos Hs.
  - exists nt, 0. auto.
  - inversion Hs as [|? ? Hs' Hx]; subst. rewrite Forall_forall in Hx.
    destruct (loop_cons p l nt (Hpos p (or_introl eq_refl))) as (a & b & E1 & E2 & HT & HF & _ & [K|K]).
    + exists (a ++ b), (cnt p). split; [apply HT; exact K|]. right. left. exists p, a, b.
      split; [left; reflexivity|]. repeat (split; [assumption || reflexivity|]).
      intros p' a' b' [<-|Hi] _ _ _; [auto|]. right. apply Hx; exact Hi.
    + destruct (IH (a ++ b)) as (x & c & E & R); [intros q Hq; apply Hpos; right; exact Hq|exact Hs'|].
      exists x, c. split; [rewrite HF by exact K; exact E|]. right.
      destruct R as [(-> & -> & ->)|[(q & a1 & b1 & Hq & F1 & F2 & F3 & F4 & F5 & F6)|(q & a1 & b1 & Hq & F1 & F2 & F3 & F4 & F5)]].
      * right. exists p, a, b. split; [left; reflexivity|]. repeat (split; [assumption || reflexivity|]).
        intros p' a' b' [<-|[]] H1 H2. rewrite E1 in H1. rewrite E2 in H2. injection H1 as <-. injection H2 as <-. auto.
      * left. exists q, a1, b1. split; [right; exact Hq|]. repeat (split; [assumption|]).
        intros p' a' b' [<-|Hi] H1 H2 K'; [|eapply F6; eauto].
        rewrite E1 in H1. rewrite E2 in H2. injection H1 as <-. injection H2 as <-. contradiction.
      * right. exists q, a1, b1. split; [right; exact Hq|]. repeat (split; [assumption|]).
        intros p' a' b' [<-|Hi] H1 H2; [|eapply F5; eauto].
        rewrite E1 in H1. rewrite E2 in H2. injection H1 as <-. injection H2 as <-. split; [exact K|]. right. apply Hx; exact Hq.
Qed.

Lemma pref_preferred p p' : In p pairs -> In p' pairs -> p' = p \/ pref cnt p p' ->
  preferred (p / n) (p mod n) (cnt p) (p' / n) (p' mod n) (cnt p').
Proof.
  intros Hp Hp' H. unfold preferred.
  destruct (Nat.eq_dec n 0) as [E0|N0].
  { exfalso. apply in_pairs in Hp. destruct (pair_index ts pss s Hpa p Hp) as (H1 & _). fold n in H1. lia. }
  destruct H as [->|[H|(H & Hl)]]; [right; lia|left; exact H|].
  right. split; [exact H|].
  pose proof (Nat.div_mod p n N0) as D. pose proof (Nat.div_mod p' n N0) as D'.
  pose proof (Nat.mod_upper_bound p n N0). pose proof (Nat.mod_upper_bound p' n N0).
  destruct (Nat.lt_trichotomy (p / n) (p' / n)) as [G|[G|G]]; [left; exact G| |].
  - right. split; [exact G|]. rewrite G in D. lia.
  - exfalso. assert (n * (p' / n) + n <= n * (p / n)) by nia. lia.
Qed.

Lemma bpe_choice :
  (add_token_bpe s = Ret None /\ forall i j x k, ~ joins s i j x k) \/
  (exists i j x k, add_token_bpe s = Ret (Some (add_token_unchecked ts x, k)) /\ joins s i j x k /\ keeps_rule x /\
     forall i' j' y k', joins s i' j' y k' -> keeps_rule y -> preferred i j k i' j' k') \/
  (exists i j x k, add_token_bpe s = Ret (Some (add_token_unchecked ts x, 0)) /\ joins s i j x k /\
     forall i' j' y k', joins s i' j' y k' -> ~ keeps_rule y /\ preferred i' j' k' i j k).
Proof.
  destruct (loop_choice pairs [] (fun p => proj1 (in_pairs p)) pairs_sorted) as (x & c & E & R).
  unfold add_token_bpe. change (stable_sort _ _) with pairs. rewrite E. cbn [bind].
  assert (Hl : forall p a b, In p pairs -> nth_error (tokens ts) (p / n) = Some (Str a) -> nth_error (tokens ts) (p mod n) = Some (Str b) ->
    a ++ b <> []).
  { intros p a b Hp E1 E2. apply in_pairs in Hp. destruct (loop_cons p [] [] Hp) as (a' & b' & F1 & F2 & _ & _ & L & _).
    rewrite E1 in F1. rewrite E2 in F2. injection F1 as <-. injection F2 as <-. intros H. rewrite H in L. cbn in L. lia. }
  assert (Hadd : forall (x : bstr) (c : nat), x <> [] ->
     (if bstr_eqb x [] then Ret None else ' (ts, _) <- add_token (st_token_set s) x;; Ret (Some (ts, c))) =
     Ret (Some (add_token_unchecked ts x, c))).
  { intros y d Hy. unfold add_token. rewrite (proj2 (bstr_eqb_neq y [])) by exact Hy. cbn [negb assert_that bind].
    rewrite (ta_set _ _ _ _ Hta). reflexivity. }
  destruct R as [(E0 & -> & ->)|[(q & a1 & b1 & Hq & F1 & F2 & F3 & F4 & F5 & F6)|(q & a1 & b1 & Hq & F1 & F2 & F3 & F4 & F5)]].
  - left. split; [reflexivity|]. intros i j x k H. apply joins_iff in H as (p & Hp & _). rewrite E0 in Hp. destruct Hp.
  - right. left. exists (q / n), (q mod n), x, c. split; [apply Hadd; rewrite F3; eapply Hl; eauto|].
    split; [apply joins_iff; exists q; repeat (split; [assumption || reflexivity|]); eauto|]. split; [exact F5|].
    intros i' j' y k' H K. apply joins_iff in H as (p' & Hp' & -> & -> & -> & a' & b' & G1 & G2 & ->). rewrite F4.
    apply pref_preferred; [exact Hq|exact Hp'|]. eapply F6; eauto.
  - right. right. exists (q / n), (q mod n), x, (cnt q). rewrite F4. split; [apply Hadd; rewrite F3; eapply Hl; eauto|].
    split; [apply joins_iff; exists q; repeat (split; [assumption || reflexivity|]); eauto|].
    intros i' j' y k' H. apply joins_iff in H as (p' & Hp' & -> & -> & -> & a' & b' & G1 & G2 & ->).
    destruct (F5 p' a' b' Hp' G1 G2) as (K & O). split; [exact K|].
    apply pref_preferred; [exact Hp'|exact Hq|]. destruct O as [->|O]; auto.
Qed.
End Choice.

(** ** C64: the pair that is joined *)

(** If some pair keeps the rule, the preferred one of those is joined and its
    number of occurrences reported. *)
Theorem C64_joins_the_preferred_pair : forall ts tk samples init s i j x k,
  tokenizer_new ts = Ret tk -> seqs_in_range ts -> tokenize_file_sync ts samples init = Ret s ->
  joins s i j x k -> keeps_rule x ->
  (forall i' j' y k', joins s i' j' y k' -> keeps_rule y -> preferred i j k i' j' k') ->
  exists ts', add_token_bpe s = Ret (Some (ts', k)) /\ tokens ts' = tokens ts ++ [Str x].
Proof.
  intros ts tk samples init s i j x k Htk Hr Hs Hj Hk Hbest.
  assert (Hu : usable ts) by (apply C01_tokenizer_exists_iff_usable; eauto).
  destruct (sync_tallied ts samples init s Hs Hr) as (pss & T & P).
  destruct (bpe_choice ts samples pss s T P Hu) as [(_ & H)|[(i1 & j1 & x1 & k1 & E & J & K & B)|(i1 & j1 & x1 & k1 & _ & _ & B)]].
  - exfalso. eapply H; exact Hj.
  - assert (P1 := Hbest _ _ _ _ J K). assert (P2 := B _ _ _ _ Hj Hk).
    assert (k1 = k /\ i1 = i /\ j1 = j) as (-> & -> & ->) by (unfold preferred in *; lia).
    assert (x1 = x) as ->.
    { destruct J as (a & b & A1 & A2 & -> & _), Hj as (a' & b' & B1 & B2 & -> & _). congruence. }
    exists (add_token_unchecked ts x). split; [exact E|reflexivity].
  - exfalso. apply (proj1 (B _ _ _ _ Hj)); exact Hk.
Qed.

(** There is such a pair as soon as one pair keeps the rule. *)
Theorem C64_preferred_pair_exists : forall ts tk samples init s i0 j0 x0 k0,
  tokenizer_new ts = Ret tk -> seqs_in_range ts -> tokenize_file_sync ts samples init = Ret s ->
  joins s i0 j0 x0 k0 -> keeps_rule x0 ->
  exists i j x k, joins s i j x k /\ keeps_rule x /\
    forall i' j' y k', joins s i' j' y k' -> keeps_rule y -> preferred i j k i' j' k'.
Proof.
  intros ts tk samples init s i0 j0 x0 k0 Htk Hr Hs Hj Hk.
  assert (Hu : usable ts) by (apply C01_tokenizer_exists_iff_usable; eauto).
  destruct (sync_tallied ts samples init s Hs Hr) as (pss & T & P).
  destruct (bpe_choice ts samples pss s T P Hu) as [(_ & H)|[(i1 & j1 & x1 & k1 & E & J & K & B)|(i1 & j1 & x1 & k1 & _ & _ & B)]].
  - exfalso. eapply H; exact Hj.
  - eauto 8.
  - exfalso. apply (proj1 (B _ _ _ _ Hj)); exact Hk.
Qed.

(** If every pair breaks the rule, the one that is preferred least is joined,
    reported with no occurrence; without pairs there is no proposal. *)
Theorem C64_otherwise : forall ts tk samples init s,
  tokenizer_new ts = Ret tk -> seqs_in_range ts -> tokenize_file_sync ts samples init = Ret s ->
  (forall i j x k, joins s i j x k -> ~ keeps_rule x) ->
  (add_token_bpe s = Ret None <-> forall i j x k, ~ joins s i j x k) /\
  (forall i j x k, joins s i j x k -> (forall i' j' y k', joins s i' j' y k' -> preferred i' j' k' i j k) ->
     exists ts', add_token_bpe s = Ret (Some (ts', 0)) /\ tokens ts' = tokens ts ++ [Str x]).
Proof.
  intros ts tk samples init s Htk Hr Hs Hno.
  assert (Hu : usable ts) by (apply C01_tokenizer_exists_iff_usable; eauto).
  destruct (sync_tallied ts samples init s Hs Hr) as (pss & T & P).
  destruct (bpe_choice ts samples pss s T P Hu) as [(E & H)|[(i1 & j1 & x1 & k1 & E & J & K & B)|(i1 & j1 & x1 & k1 & E & J & B)]].
  - split; [tauto|]. intros i j x k Hj. exfalso. eapply H; exact Hj.
  - exfalso. eapply Hno; eauto.
  - split.
    + split; [congruence|]. intros H. exfalso. eapply H; exact J.
    + intros i j x k Hj L. assert (P1 := L _ _ _ _ J). assert (P2 := proj2 (B _ _ _ _ Hj)).
      assert (k1 = k /\ i1 = i /\ j1 = j) as (-> & -> & ->) by (unfold preferred in *; lia).
      assert (x1 = x) as ->.
      { destruct J as (a & b & A1 & A2 & -> & _), Hj as (a' & b' & B1 & B2 & -> & _). congruence. }
      exists (add_token_unchecked ts x). split; [exact E|reflexivity].
Qed.

(** ** C65: what joining saves *)

(** Joining from left to right. *)
Fixpoint joined (i j : nat) (ps : list piece) : nat :=
  match ps with
  | [] => 0
  | p :: r =>
      match p, r with
      | PTok a, PTok b :: r' => if (a =? i) && (b =? j) then S (joined i j r') else joined i j r
      | _, _ => joined i j r
      end
  end.

Lemma two_ind {A} (P : list A -> Prop) : P [] -> (forall x, P [x]) ->
  (forall x y l, P l -> P (y :: l) -> P (x :: y :: l)) -> forall l, P l.
Proof.
  intros H0 H1 H2. assert (G : forall l, P l /\ forall x, P (x :: l)).
  { induction l as [|x l [IH1 IH2]]; [split; auto|]. split; [apply IH2|]. intros y. apply H2; [exact IH1|apply IH2]. }
  intros l. apply G.
Qed.

Lemma adj_joined_diff i j ps : i <> j -> adj i j ps <= joined i j ps.
Proof.
  intros Hij. induction ps as [|x|x y l IH1 IH2] using two_ind.
  - cbn; lia.
  - destruct x; cbn; lia.
  - destruct x as [a|a].
    2:{ change (adj i j (PSeq a :: y :: l)) with (adj i j (y :: l)).
        change (joined i j (PSeq a :: y :: l)) with (joined i j (y :: l)). exact IH2. }
    destruct y as [b|b].
    2:{ change (adj i j (PTok a :: PSeq b :: l)) with (adj i j l).
        change (joined i j (PTok a :: PSeq b :: l)) with (joined i j l). exact IH1. }
    change (adj i j (PTok a :: PTok b :: l)) with ((if (a =? i) && (b =? j) then 1 else 0) + adj i j (PTok b :: l)).
    change (joined i j (PTok a :: PTok b :: l)) with
      (if (a =? i) && (b =? j) then S (joined i j l) else joined i j (PTok b :: l)).
    destruct ((a =? i) && (b =? j)) eqn:E; [|exact IH2]. apply andb_true_iff in E as (E1 & E2).
    apply Nat.eqb_eq in E1, E2. subst a b. cbn [adj].
    destruct l as [|[c|c] l]; try lia. rewrite (proj2 (Nat.eqb_neq j i)) by congruence. cbn [andb]. lia.
Qed.

Lemma adj_joined_same i ps : adj i i ps <= 2 * joined i i ps.
Proof.
  induction ps as [|x|x y l IH1 IH2] using two_ind.
  - cbn; lia.
  - destruct x; cbn; lia.
  - destruct x as [a|a].
    2:{ change (adj i i (PSeq a :: y :: l)) with (adj i i (y :: l)).
        change (joined i i (PSeq a :: y :: l)) with (joined i i (y :: l)). exact IH2. }
    destruct y as [b|b].
    2:{ change (adj i i (PTok a :: PSeq b :: l)) with (adj i i l).
        change (joined i i (PTok a :: PSeq b :: l)) with (joined i i l). exact IH1. }
    change (adj i i (PTok a :: PTok b :: l)) with ((if (a =? i) && (b =? i) then 1 else 0) + adj i i (PTok b :: l)).
    change (joined i i (PTok a :: PTok b :: l)) with
      (if (a =? i) && (b =? i) then S (joined i i l) else joined i i (PTok b :: l)).
    destruct ((a =? i) && (b =? i)) eqn:E; [|exact IH2].
    cbn [adj]. destruct l as [|[c|c] l]; try lia. destruct ((b =? i) && (c =? i)); lia.
Qed.

Lemma join_segments ts ts' i j a b : dict_le ts' ts ->
  nth_error (tokens ts) i = Some (Str a) -> nth_error (tokens ts) j = Some (Str b) ->
  (exists p, piece_string ts' p = Some (a ++ b) /\ length (piece_tokens ts' p) = 1) ->
  forall ps text, segments ts ps text ->
  exists qs, segments ts' qs text /\ length (stream ts' qs) + joined i j ps <= length (stream ts ps).
Proof.
  intros Hd Ei Ej (pn & Hpn & Hln).
  induction ps as [|x|x y l IH1 IH2] using two_ind; intros text Hs.
  - inversion Hs; subst. exists []. split; [constructor|cbn; lia].
  - inversion Hs as [|? ? u v Hx Hn]; subst. inversion Hn; subst. destruct (Hd _ _ Hx) as (q & Hq & Hl).
    exists [q]. split; [constructor; [exact Hq|constructor]|].
    replace (joined i j [x]) with 0 by (destruct x; reflexivity). unfold stream; cbn [flat_map]. rewrite !app_nil_r. lia.
  - inversion Hs as [|? ? u v Hx Hv]; subst.
    assert (Keep : exists qs, segments ts' qs (u ++ v) /\
              length (stream ts' qs) + joined i j (y :: l) <= length (stream ts (x :: y :: l))).
    { destruct (IH2 v Hv) as (qs & Hq & Hl). destruct (Hd _ _ Hx) as (q & Hqx & Hlx).
      exists (q :: qs). split; [constructor; assumption|].
      unfold stream in *; cbn [flat_map] in *. rewrite !app_length in *. lia. }
    destruct x as [c|c]; [|exact Keep]. destruct y as [d|d]; [|exact Keep].
    change (joined i j (PTok c :: PTok d :: l)) with
      (if (c =? i) && (d =? j) then S (joined i j l) else joined i j (PTok d :: l)).
    destruct ((c =? i) && (d =? j)) eqn:E; [|exact Keep]. apply andb_true_iff in E as (E1 & E2).
    apply Nat.eqb_eq in E1, E2. subst c d.
    inversion Hv as [|? ? u2 v2 Hy Hv2]; subst. cbn in Hx, Hy. rewrite Ei in Hx. rewrite Ej in Hy.
    injection Hx as <-. injection Hy as <-. destruct (IH1 v2 Hv2) as (qs & Hq & Hl).
    exists (pn :: qs). split; [rewrite app_assoc; constructor; assumption|].
    unfold stream in *; cbn [flat_map piece_tokens] in *. rewrite !app_length in *. cbn [length]. lia.
Qed.

Lemma join_all ts ts' i j a b : dict_le ts' ts ->
  nth_error (tokens ts) i = Some (Str a) -> nth_error (tokens ts) j = Some (Str b) ->
  (exists p, piece_string ts' p = Some (a ++ b) /\ length (piece_tokens ts' p) = 1) ->
  forall pss samples, Forall2 (segments ts) pss samples ->
  exists qss, Forall2 (segments ts') qss samples /\
    length (stream ts' (concat qss)) + sum (map (joined i j) pss) <= length (stream ts (concat pss)).
Proof.
  intros Hd Ei Ej Hp. induction 1 as [|ps x pss samples Hs _ (qss & IH1 & IH2)].
  - exists []. split; [constructor|cbn; lia].
  - destruct (join_segments ts ts' i j a b Hd Ei Ej Hp ps x Hs) as (qs & G1 & G2).
    exists (qs :: qss). split; [constructor; assumption|]. cbn [concat map]. rewrite !stream_app, !app_length.
    unfold sum in *; cbn [fold_right]. lia.
Qed.

Lemma sum_map_le {A} (f g : A -> nat) l : (forall x, f x <= g x) -> sum (map f l) <= sum (map g l).
Proof. intros H. unfold sum. induction l as [|x l IH]; cbn; [lia|]. specialize (H x). lia. Qed.
Lemma sum_map_double {A} (f : A -> nat) l : sum (map (fun x => 2 * f x) l) = 2 * sum (map f l).
Proof. unfold sum. induction l as [|x l IH]; cbn [map fold_right]; lia. Qed.

(** A pair of different tokens that occurs [k] times saves at least [k] tokens;
    twice the same token saves at least half of them. *)
Theorem C65_joining_saves_partial : forall ts tk samples init s i j x k ts' m s',
  tokenizer_new ts = Ret tk -> seqs_in_range ts -> (forall q, In q (sequences ts) -> seq_tokens q <> []) ->
  tokenize_file_sync ts samples init = Ret s -> joins s i j x k ->
  add_token ts x = Ret (ts', m) -> tokenize_file_sync ts' samples init = Ret s' ->
  total_tokens s' + (if i =? j then (k + 1) / 2 else k) <= total_tokens s.
Proof.
  intros ts tk samples init s i j x k ts' m s' Htk Hr Hne Hs Hj Ha Hs'.
  destruct (sync_tallied ts samples init s Hs Hr) as (pss & T & P).
  unfold add_token in Ha. apply assert_that_bind in Ha as (_ & Ha).
  apply (f_equal (fun o => match o with Ret (t, _) => t | _ => ts end)) in Ha; cbn beta iota in Ha.
  assert (Hr' : seqs_in_range ts') by (rewrite <- Ha; apply seqs_in_range_add; exact Hr).
  destruct (sync_tallied ts' samples init s' Hs' Hr') as (pss' & T' & _).
  destruct Hj as (a & b & Ei & Ej & -> & Hk & Hpos). rewrite (ta_set _ _ _ _ T) in *.
  assert (Hi : i < ntokens ts) by (apply nth_error_Some; congruence). assert (Hjl : j < ntokens ts) by (apply nth_error_Some; congruence).
  assert (Ek : k = sum (map (adj i j) pss)).
  { rewrite <- (proj2 P i j Hi Hjl). symmetry. apply nth_error_nth; exact Hk. }
  assert (Hd : dict_le ts' ts) by (rewrite <- Ha; apply add_token_dict_le; exact Hne).
  assert (Hp : exists p, piece_string ts' p = Some (a ++ b) /\ length (piece_tokens ts' p) = 1).
  { exists (PTok (length (tokens ts))). rewrite <- Ha. cbn. rewrite nth_error_app2, Nat.sub_diag by lia. auto. }
  assert (Hsg : Forall2 (segments ts) pss samples) by (eapply Forall2_impl; [|apply (ta_opt _ _ _ _ T)]; intros ? ? (H & _); exact H).
  destruct (join_all ts ts' i j a b Hd Ei Ej Hp pss samples Hsg) as (qss & Hq & Hl).
  pose proof (optimal_total_le ts' samples pss' qss (ta_opt _ _ _ _ T') Hq) as Ho.
  rewrite (ta_total _ _ _ _ T), (ta_total _ _ _ _ T').
  destruct (Nat.eqb_spec i j) as [<-|Hij].
  - pose proof (sum_map_le _ _ pss (adj_joined_same i)) as G. rewrite sum_map_double in G. rewrite <- Ek in G.
    assert ((k + 1) / 2 <= sum (map (joined i i) pss)).
    { apply Nat.lt_succ_r. apply Nat.div_lt_upper_bound; lia. }
    lia.
  - pose proof (sum_map_le _ _ pss (fun ps => adj_joined_diff i j ps Hij)) as G. lia.
Qed.

(** In particular for the pair a BPE step proposes. *)
Theorem C65_bpe_step_saves : forall ts tk samples init s ts' c s',
  tokenizer_new ts = Ret tk -> seqs_in_range ts -> (forall q, In q (sequences ts) -> seq_tokens q <> []) ->
  tokenize_file_sync ts samples init = Ret s ->
  add_token_bpe s = Ret (Some (ts', c)) -> tokenize_file_sync ts' samples init = Ret s' ->
  total_tokens s' < total_tokens s /\ total_tokens s' + (c + 1) / 2 <= total_tokens s.
Proof.
  intros ts tk samples init s ts' c s' Htk Hr Hne Hs Hb Hs'.
  assert (Hu : usable ts) by (apply C01_tokenizer_exists_iff_usable; eauto).
  destruct (sync_tallied ts samples init s Hs Hr) as (pss & T & P).
  assert (G : exists i j x k, joins s i j x k /\ ts' = add_token_unchecked ts x /\ c <= k).
  { destruct (bpe_choice ts samples pss s T P Hu) as [(E & _)|[(i & j & x & k & E & J & _)|(i & j & x & k & E & J & _)]]; rewrite E in Hb.
    - discriminate.
    - exists i, j, x, k. split; [exact J|]. split; [congruence|]. injection Hb as _ <-. lia.
    - exists i, j, x, k. split; [exact J|]. split; [congruence|]. injection Hb as _ <-. lia. }
  destruct G as (i & j & x & k & J & -> & Hc).
  assert (Hx : x <> []).
  { destruct J as (a & b & E1 & _ & -> & _). rewrite (ta_set _ _ _ _ T) in E1. intros E0. apply app_eq_nil in E0 as (-> & _).
    destruct Hu as (_ & Hne0 & _). apply Hne0. unfold strings. apply in_app_iff. left.
    apply in_flat_map. exists (Str []). split; [eapply nth_error_In; exact E1|left; reflexivity]. }
  assert (Ea : add_token ts x = Ret (add_token_unchecked ts x, length (tokens ts))).
  { unfold add_token. rewrite (proj2 (bstr_eqb_neq x [])) by exact Hx. reflexivity. }
  pose proof (C65_joining_saves_partial ts tk samples init s i j x k _ _ s' Htk Hr Hne Hs J Ea Hs') as L.
  assert (Hk : 0 < k) by (destruct J as (a & b & _ & _ & _ & _ & H); exact H).
  assert ((c + 1) / 2 <= (k + 1) / 2) by (apply Nat.div_le_mono; lia).
  assert ((k + 1) / 2 <= k) by (apply Nat.lt_succ_r, Nat.div_lt_upper_bound; lia).
  assert (0 < (k + 1) / 2) by (apply Nat.div_str_pos; lia).
  destruct (i =? j); lia.
Qed.

(** The bytes and the text "ab": one pair, which occurs once. *)
Example C64_C65_hypotheses_met : exists ts tk s i j ts' m s',
  tokenizer_new ts = Ret tk /\ seqs_in_range ts /\ (forall q, In q (sequences ts) -> seq_tokens q <> []) /\
  tokenize_file_sync ts [[x61; x62]] None = Ret s /\ joins s i j [x61; x62] 1 /\ keeps_rule [x61; x62] /\
  (forall i' j' y k', joins s i' j' y k' -> keeps_rule y -> preferred i j 1 i' j' k') /\
  add_token ts [x61; x62] = Ret (ts', m) /\ tokenize_file_sync ts' [[x61; x62]] None = Ret s'.
Proof.
  destruct (visited_bytes Raw) as (V0 & _ & L0).
  assert (Hb : forall b, In (Str [b]) (tokens (new_bytes Raw))).
  { intros b. apply in_str_tokens. rewrite (str_tokens_shaped _ _ (sh_tokens _ _ (shaped_new_bytes Raw))).
    unfold singles. apply in_map_iff. exists b. split; [reflexivity|apply in_all_bytes]. }
  assert (Hs0 : forall x, In x (strings (new_bytes Raw)) -> length x = 1).
  { intros x Hx. rewrite (strings_shaped _ _ (shaped_new_bytes Raw)) in Hx. apply in_app_iff in Hx as [Hx|Hx].
    - apply in_map_iff in Hx as (b & <- & _). reflexivity.
    - apply in_map_iff in Hx as (q & <- & Hq). apply (visited_single _ _ _ _ V0 q Hq). }
  revert V0 Hb Hs0. generalize (new_bytes Raw). clear L0. intros ts V Hb Hs0.
  pose proof (vi_usable _ _ _ _ V) as Hu. destruct (vi_shaped _ _ _ _ V) as (ss & S).
  destruct (proj2 (C01_tokenizer_exists_iff_usable ts) Hu) as (tk & Htk).
  pose proof (visited_range _ _ _ _ V) as Hr.
  assert (Es : exists s, tokenize_file_sync ts [[x61; x62]] None = Ret s) by (eexists; apply (sync_eq ts tk Htk Hr)).
  destruct Es as (s & Es). destruct (sync_tallied ts _ None s Es Hr) as (pss & T & P).
  pose proof (ta_opt _ _ _ _ T) as Ho. inversion Ho as [|ps x l l' Hps Hl]; subst. inversion Hl; subst.
  assert (Hw : ~ In ([x61] ++ [x62]) (strings ts)) by (intros H; apply Hs0 in H; discriminate).
  destruct (two_token_text ts [x61] [x62] Hu (visited_nonempty _ _ _ _ V) (sh_long _ _ S) (Hb _) (Hb _)) with (ps := ps) as (i & j & a & b & -> & Ei & Ej & Eab);
    [discriminate|discriminate|exact Hw|exact Hps|].
  assert (Hi : i < ntokens ts) by (apply nth_error_Some; congruence). assert (Hj : j < ntokens ts) by (apply nth_error_Some; congruence).
  assert (Hc : forall i' j', i' < ntokens ts -> j' < ntokens ts ->
     nth_error (pair_counts s) (i' * ntokens ts + j') = Some (if (i =? i') && (j =? j') then 1 else 0)).
  { intros i' j' H1 H2. destruct P as (P1 & P2). rewrite (nth_error_nth' _ 0), P2 by (assumption || nia). cbn. f_equal.
    destruct ((i =? i') && (j =? j')); reflexivity. }
  set (ts' := add_token_unchecked ts [x61; x62]).
  assert (Hu' : usable ts').
  { apply usable_add; [exact Hu|discriminate|]. intros H. apply Hw. unfold strings. fold (str_tokens ts). apply in_app_iff. left. exact H. }
  destruct (proj2 (C01_tokenizer_exists_iff_usable ts') Hu') as (tk' & Htk').
  assert (Hr' : seqs_in_range ts') by (apply seqs_in_range_add; exact Hr).
  exists ts, tk, s, i, j, ts', (length (tokens ts)). eexists.
  split; [exact Htk|]. split; [exact Hr|]. split; [exact (visited_nonempty _ _ _ _ V)|]. split; [exact Es|].
  split; [|split; [|split; [|split; [|apply (sync_eq ts' tk' Htk' Hr')]]]].
  - exists a, b. rewrite (ta_set _ _ _ _ T). split; [exact Ei|]. split; [exact Ej|]. split; [symmetry; exact Eab|].
    split; [rewrite Hc by assumption; rewrite !Nat.eqb_refl; reflexivity|lia].
  - intros (u & c & w & r & E & _). destruct u as [|u0 [|u1 u]]; cbn in E; try discriminate.
    injection E as _ _ E. destruct u; discriminate.
  - intros i' j' y k' (a' & b' & E1 & E2 & -> & Hk & Hp) _. rewrite (ta_set _ _ _ _ T) in *.
    rewrite Hc in Hk by (apply nth_error_Some; congruence). injection Hk as <-. unfold preferred.
    destruct (Nat.eqb_spec i i'); destruct (Nat.eqb_spec j j'); cbn in Hp |- *; try lia.
  - reflexivity.
Qed.

(** The bound for equal tokens cannot be better: in "aaa" the byte token "a"
    follows itself twice, but joining saves one token only. *)
Theorem C65_joining_saves_refuted : exists ts tk s i k ts' m s',
  tokenizer_new ts = Ret tk /\ seqs_in_range ts /\ (forall q, In q (sequences ts) -> seq_tokens q <> []) /\
  tokenize_file_sync ts [[x61; x61; x61]] None = Ret s /\ joins s i i [x61; x61] k /\
  add_token ts [x61; x61] = Ret (ts', m) /\ tokenize_file_sync ts' [[x61; x61; x61]] None = Ret s' /\
  k = 2 /\ total_tokens s' + 1 = total_tokens s.
Proof.
  destruct (visited_bytes Raw) as (V0 & _ & L0).
  assert (Hb : forall b, In (Str [b]) (tokens (new_bytes Raw))).
  { intros b. apply in_str_tokens. rewrite (str_tokens_shaped _ _ (sh_tokens _ _ (shaped_new_bytes Raw))).
    unfold singles. apply in_map_iff. exists b. split; [reflexivity|apply in_all_bytes]. }
  assert (Hs0 : forall x, In x (strings (new_bytes Raw)) -> length x = 1).
  { intros x Hx. rewrite (strings_shaped _ _ (shaped_new_bytes Raw)) in Hx. apply in_app_iff in Hx as [Hx|Hx].
    - apply in_map_iff in Hx as (b & <- & _). reflexivity.
    - apply in_map_iff in Hx as (q & <- & Hq). apply (visited_single _ _ _ _ V0 q Hq). }
  revert V0 Hb Hs0. generalize (new_bytes Raw). clear L0. intros ts V Hb Hs0.
  pose proof (vi_usable _ _ _ _ V) as Hu.
  destruct (proj2 (C01_tokenizer_exists_iff_usable ts) Hu) as (tk & Htk).
  pose proof (visited_range _ _ _ _ V) as Hr. pose proof (visited_nonempty _ _ _ _ V) as Hne.
  destruct (In_nth_error _ _ (Hb x61)) as (i & Ei).
  assert (Hpi : piece_string ts (PTok i) = Some [x61]) by (cbn; rewrite Ei; reflexivity).
  (* cutting off one byte *)
  assert (Hcut : forall ps r, segments ts ps (x61 :: r) -> exists ps', ps = PTok i :: ps' /\ segments ts ps' r).
  { intros ps r H. remember (x61 :: r) as t eqn:Et. destruct H as [|p ps x r' Hp H]; [discriminate|].
    assert (Hx : length x = 1) by (apply Hs0, in_strings; eauto). destruct x as [|c [|]]; try discriminate.
    cbn in Et. injection Et as -> ->. exists ps. split; [|exact H]. f_equal. exact (piece_unique ts p (PTok i) [x61] Hu Hp Hpi). }
  assert (Es : exists s, tokenize_file_sync ts [[x61; x61; x61]] None = Ret s) by (eexists; apply (sync_eq ts tk Htk Hr)).
  destruct Es as (s & Es). destruct (sync_tallied ts _ None s Es Hr) as (pss & T & P).
  pose proof (ta_opt _ _ _ _ T) as Ho. inversion Ho as [|ps x l l' (Hps & _) Hl]; subst. inversion Hl; subst. clear Ho Hl.
  apply Hcut in Hps as (ps1 & -> & Hps). apply Hcut in Hps as (ps2 & -> & Hps). apply Hcut in Hps as (ps3 & -> & Hps).
  assert (ps3 = []) as ->.
  { clear -Hps Hs0. remember [] as t eqn:Et in Hps. destruct Hps as [|p ps x r Hp _]; [reflexivity|].
    apply app_eq_nil in Et as (-> & _). assert (length (@nil byte) = 1) by (apply Hs0, in_strings; eauto). discriminate. }
  assert (Hi : i < ntokens ts) by (apply nth_error_Some; congruence).
  set (ts' := add_token_unchecked ts [x61; x61]).
  assert (Hu' : usable ts').
  { apply usable_add; [exact Hu|discriminate|]. intros H. assert (length [x61; x61] = 1); [|discriminate].
    apply Hs0. unfold strings. fold (str_tokens ts). apply in_app_iff. left. exact H. }
  destruct (proj2 (C01_tokenizer_exists_iff_usable ts') Hu') as (tk' & Htk').
  assert (Hr' : seqs_in_range ts') by (apply seqs_in_range_add; exact Hr).
  assert (Es' : exists s', tokenize_file_sync ts' [[x61; x61; x61]] None = Ret s') by (eexists; apply (sync_eq ts' tk' Htk' Hr')).
  destruct Es' as (s' & Es').
  assert (J : joins s i i [x61; x61] 2).
  { exists [x61], [x61]. rewrite (ta_set _ _ _ _ T). repeat (split; [assumption || reflexivity|]). split; [|lia].
    destruct P as (P1 & P2). rewrite (nth_error_nth' _ 0), P2 by (assumption || nia). cbn. rewrite !Nat.eqb_refl. reflexivity. }
  assert (Ea : add_token ts [x61; x61] = Ret (ts', length (tokens ts))) by reflexivity.
  exists ts, tk, s, i, 2, ts', (length (tokens ts)), s'.
  repeat (split; [assumption || reflexivity|]).
  pose proof (C65_joining_saves_partial ts tk _ None s i i _ 2 ts' _ s' Htk Hr Hne Es J Ea Es') as L. rewrite Nat.eqb_refl in L. cbn in L.
  assert (Ht : total_tokens s = 3) by (rewrite (ta_total _ _ _ _ T); reflexivity).
  assert (Ht' : 2 <= total_tokens s'); [|lia].
  destruct (sync_tallied ts' _ None s' Es' Hr') as (pss' & T' & _). rewrite (ta_total _ _ _ _ T').
  pose proof (ta_opt _ _ _ _ T') as Ho. inversion Ho as [|ps x l l' (Hps' & _) Hl]; subst. inversion Hl; subst. clear Ho Hl.
  cbn [concat]. rewrite app_nil_r.
  assert (Hne' : seqs_nonempty ts') by (apply seqs_nonempty_add; exact Hne).
  assert (Hlen : forall p x, piece_string ts' p = Some x -> length x <= 2).
  { intros p x Hp. assert (H : In x (strings ts')) by (apply in_strings; eauto). apply in_strings_add in H as [H| ->]; [apply Hs0 in H; lia|cbn; lia]. }
  remember [x61; x61; x61] as t eqn:Et in Hps'. destruct Hps' as [|p ps0 x r Hp Hps']; [discriminate|].
  pose proof (Hlen _ _ Hp). destruct Hps' as [|p2 ps0 x2 r2 Hp2 _].
  { rewrite app_nil_r in Et. subst x. cbn in H. lia. }
  pose proof (piece_tokens_pos ts' p x Hne' Hp). pose proof (piece_tokens_pos ts' p2 x2 Hne' Hp2).
  unfold stream. cbn [flat_map]. rewrite !app_length. lia.
Qed.
