(** * Adding statistics: merge, and process_slice as an addition. *)
From Verif Require Import Base BaseLemmas TokenSetModel TokenizerModel TokSpec
  TokenizerProof1 TokenizerProof2 TokenSetProof BatchModel PropTokenizer.

Fixpoint zadd (a b : list nat) : list nat :=
  match a, b with
  | x :: a', y :: b' => x + y :: zadd a' b'
  | _, _ => []
  end.

Lemma zadd_length a b : length a = length b -> length (zadd a b) = length a.
Proof. revert b; induction a as [|x a IH]; intros [|y b] H; cbn in *; try discriminate; auto. Qed.

Lemma nth_zadd a b i : length a = length b -> nth i (zadd a b) 0 = nth i a 0 + nth i b 0.
Proof.
  revert b i; induction a as [|x a IH]; intros [|y b] [|i] H; cbn in *; try discriminate; auto.
Qed.

Lemma add_counts_eq a b : length a = length b -> add_counts a b = Ret (zadd a b).
Proof.
  revert b; induction a as [|x a IH]; intros [|y b] H; cbn in *; try discriminate; auto.
  injection H as H. rewrite IH by exact H. reflexivity.
Qed.

Lemma zadd_comm a b : zadd a b = zadd b a.
Proof. revert b; induction a as [|x a IH]; intros [|y b]; cbn; auto. rewrite IH. f_equal. lia. Qed.
Lemma zadd_assoc a b c : zadd (zadd a b) c = zadd a (zadd b c).
Proof.
  revert b c; induction a as [|x a IH]; intros [|y b] [|z c]; cbn; auto. rewrite IH. f_equal. lia.
Qed.
Lemma zadd_0_r a n : length a = n -> zadd a (repeat 0 n) = a.
Proof. intros <-. induction a as [|x a IH]; cbn; [reflexivity|]. rewrite IH. f_equal. lia. Qed.
Lemma zadd_0_l a n : length a = n -> zadd (repeat 0 n) a = a.
Proof. intros H. rewrite zadd_comm. apply zadd_0_r; exact H. Qed.

Definition madd (a b : stats) : stats :=
  mkStats (st_token_set a) (total_tokens a + total_tokens b) (initial_size a)
          (scanned_bytes a + scanned_bytes b) (zadd (token_counts a) (token_counts b))
          (zadd (seq_counts a) (seq_counts b)) (zadd (pair_counts a) (pair_counts b)).

Lemma matches_madd ts a b : matches ts a -> matches ts b -> matches ts (madd a b).
Proof.
  intros (A1 & A2 & A3 & A4) (B1 & B2 & B3 & B4). unfold matches; cbn.
  rewrite !zadd_length by congruence. auto.
Qed.

Lemma merge_eq ts a b : matches ts a -> matches ts b -> merge a b = Ret (madd a b).
Proof.
  intros (A1 & A2 & A3 & A4) (B1 & B2 & B3 & B4). unfold merge.
  rewrite !add_counts_eq by congruence. reflexivity.
Qed.

Lemma madd_assoc a b c : madd (madd a b) c = madd a (madd b c).
Proof. unfold madd; cbn. rewrite !zadd_assoc. f_equal; lia. Qed.

Lemma madd_swap a b c : madd (madd a b) c = madd (madd a c) b.
Proof.
  unfold madd; cbn. rewrite !zadd_assoc. rewrite (zadd_comm (token_counts b)),
    (zadd_comm (seq_counts b)), (zadd_comm (pair_counts b)). f_equal; lia.
Qed.

Lemma madd_new ts a init : matches ts a -> madd a (stats_new ts init) = a.
Proof.
  intros (A1 & A2 & A3 & A4). unfold madd; cbn.
  rewrite !zadd_0_r by assumption. rewrite !Nat.add_0_r. destruct a; reflexivity.
Qed.

(** ** One sample as an addition *)
Lemma counted_madd ts ps text s s' d :
  matches ts s -> counted ts ps text s s' -> counted ts ps text (stats_new ts None) d ->
  s' = madd s d.
Proof.
  intros (M1 & M2 & M3 & M4) C D.
  destruct (counted_matches _ _ _ _ _ C) as (N1 & N2 & N3 & N4).
  destruct (counted_matches _ _ _ _ _ D) as (K1 & K2 & K3 & K4).
  pose proof (counted_total _ _ _ _ _ C) as T1. pose proof (counted_total _ _ _ _ _ D) as T2.
  pose proof (counted_initial _ _ _ _ _ C) as I1.
  pose proof (counted_scanned _ _ _ _ _ C) as S1. pose proof (counted_scanned _ _ _ _ _ D) as S2.
  cbn in T2, S2.
  assert (E1 : token_counts s' = zadd (token_counts s) (token_counts d)).
  { apply nth_ext with (d := 0) (d' := 0); [rewrite zadd_length; congruence|].
    intros t _. rewrite nth_zadd by congruence.
    rewrite (counted_tokens _ _ _ _ _ C), (counted_tokens _ _ _ _ _ D). cbn.
    rewrite nth_repeat. reflexivity. }
  assert (E2 : seq_counts s' = zadd (seq_counts s) (seq_counts d)).
  { apply nth_ext with (d := 0) (d' := 0); [rewrite zadd_length; congruence|].
    intros t _. rewrite nth_zadd by congruence.
    rewrite (counted_seqs _ _ _ _ _ C), (counted_seqs _ _ _ _ _ D). cbn.
    rewrite nth_repeat. reflexivity. }
  assert (E3 : pair_counts s' = zadd (pair_counts s) (pair_counts d)).
  { apply nth_ext with (d := 0) (d' := 0); [rewrite zadd_length; congruence|].
    intros t Ht. rewrite nth_zadd by congruence. rewrite N4 in Ht.
    set (n := ntokens ts) in *.
    assert (Hn : n <> 0) by (intros E; rewrite E in Ht; cbn in Ht; lia).
    assert (Hi : t / n < n) by (apply Nat.div_lt_upper_bound; assumption).
    assert (Hj : t mod n < n) by (apply Nat.mod_upper_bound; assumption).
    assert (Et : t = t / n * n + t mod n).
    { rewrite (Nat.mul_comm (t / n)). apply Nat.div_mod; exact Hn. }
    rewrite Et. unfold n in *. rewrite (counted_pairs _ _ _ _ _ C _ _ Hi Hj), (counted_pairs _ _ _ _ _ D _ _ Hi Hj).
    cbn. rewrite nth_repeat. reflexivity. }
  destruct s' as [a1 a2 a3 a4 a5 a6 a7]. unfold madd; cbn in *. subst.
  f_equal; congruence.
Qed.

(** What one sample adds. *)
Definition delta (ts : tokenset) (tk : tokenizer) (x : bstr) : stats :=
  match process_slice tk x (stats_new ts None) [] with
  | Ret (d, _) => d
  | _ => stats_new ts None
  end.

Section Tally.
Variables (ts : tokenset) (tk : tokenizer).
Hypothesis Htk : tokenizer_new ts = Ret tk.
Hypothesis Hr : seqs_in_range ts.

Lemma process_slice_delta x : matches ts (delta ts tk x) /\
  exists cs, forall s buf, matches ts s ->
    process_slice tk x s buf = Ret (madd s (delta ts tk x), cs).
Proof.
  destruct (tokenization_correct ts tk x Htk Hr) as (ps & cs & _ & Hall).
  destruct (Hall (stats_new ts None) [] (matches_new ts None)) as (d & E & D).
  assert (Ed : delta ts tk x = d) by (unfold delta; rewrite E; reflexivity).
  rewrite Ed. split; [apply (counted_matches _ _ _ _ _ D)|].
  exists cs. intros s buf Hs. destruct (Hall s buf Hs) as (s' & Es & C). rewrite Es.
  repeat f_equal. eapply counted_madd; eauto.
Qed.

Lemma delta_matches x : matches ts (delta ts tk x).
Proof. apply process_slice_delta. Qed.

Definition tally (init : option nat) (l : list bstr) : stats :=
  fold_left (fun s x => madd s (delta ts tk x)) l (stats_new ts init).

Lemma fold_madd_matches l : forall s, matches ts s ->
  matches ts (fold_left (fun s x => madd s (delta ts tk x)) l s).
Proof.
  induction l as [|x l IH]; intros s Hs; cbn; [exact Hs|].
  apply IH, matches_madd; [exact Hs|apply delta_matches].
Qed.

Lemma tally_matches init l : matches ts (tally init l).
Proof. apply fold_madd_matches, matches_new. Qed.

Lemma tally_snoc init l x : tally init (l ++ [x]) = madd (tally init l) (delta ts tk x).
Proof. unfold tally. rewrite fold_left_app. reflexivity. Qed.

Lemma fold_madd_start l : forall s0 s, matches ts s -> matches ts s0 ->
  fold_left (fun s x => madd s (delta ts tk x)) l (madd s0 s)
  = madd s0 (fold_left (fun s x => madd s (delta ts tk x)) l s).
Proof.
  induction l as [|x l IH]; intros s0 s Hs Hs0; cbn; [reflexivity|].
  rewrite madd_assoc. apply IH; auto. apply matches_madd; [exact Hs|apply delta_matches].
Qed.

Lemma tally_app init l1 l2 : tally init (l1 ++ l2) = madd (tally init l1) (tally None l2).
Proof.
  pose proof (fold_madd_start l2 (tally init l1) (stats_new ts None) (matches_new ts None)
                (tally_matches init l1)) as H.
  rewrite madd_new in H by apply tally_matches.
  unfold tally in *. rewrite fold_left_app. exact H.
Qed.

Lemma tally_perm init l1 l2 : Permutation l1 l2 -> tally init l1 = tally init l2.
Proof.
  intros H. unfold tally. generalize (stats_new ts init) as s.
  induction H as [|x l l' _ IH|x y l|l l' l'' _ IH1 _ IH2]; intros s; cbn; auto.
  - rewrite madd_swap. reflexivity.
  - rewrite IH1. apply IH2.
Qed.

Lemma process_all_eq l : forall s b, matches ts s ->
  exists b', process_all tk l (s, b) = Ret (fold_left (fun s x => madd s (delta ts tk x)) l s, b').
Proof.
  induction l as [|x l IH]; intros s b Hs; cbn; [eauto|].
  destruct (process_slice_delta x) as (Hd & cs & Hall). rewrite (Hall s b Hs). cbn.
  apply IH. apply matches_madd; assumption.
Qed.

Lemma sync_eq samples init : tokenize_file_sync ts samples init = Ret (tally init samples).
Proof.
  unfold tokenize_file_sync. rewrite Htk. cbn.
  destruct (process_all_eq samples (stats_new ts init) [] (matches_new ts init)) as (b & E).
  rewrite E. reflexivity.
Qed.
End Tally.
