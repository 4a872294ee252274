(** * C116: an optimization depends only on the proportions of the data. *)
From Coq Require Import ZArith.
From Verif Require Import Base BaseLemmas SortLemmas TokenSetModel TokenizerModel TokSpec TokenizerProof1
  TokenSetProof TokenSetProof2 PropTokenizer StatsAlgebra BatchModel PropBatch
  PropJson Shaped CacheModel PropCache OptBytesModel OptBytesProof3 OptimizeModel OptimizeProof1 OptimizeProof2 OptimizeProof3
  OptimizeProof8 PropOptimize PropDeterminism.

(** The same data [k] times. *)
Definition times (k : nat) (samples : list bstr) : list bstr := concat (repeat samples k).

(** Two collections of samples with the same contents in the same proportions, such as [x; x; y] and [y; x; y; x; x; x]. *)
Definition same_proportions (a b : nat) (samples1 samples2 : list bstr) : Prop :=
  1 <= a /\ 1 <= b /\ Permutation (times a samples1) (times b samples2).

(** ** Statistics of repeated data *)
Section Scale.
Variables (k : nat) (init2 : option nat).
Hypothesis Hk : 1 <= k.

Definition scale (s : stats) : stats :=
  mkStats (st_token_set s) (k * total_tokens s) init2 (k * scanned_bytes s)
    (map (Nat.mul k) (token_counts s)) (map (Nat.mul k) (seq_counts s)) (map (Nat.mul k) (pair_counts s)).

Definition omap {A B} (f : A -> B) (o : outcome A) : outcome B := x <- o ;; Ret (f x).

Lemma omap_ret {A B} (f : A -> B) o b : omap f o = Ret b -> exists a, o = Ret a /\ b = f a.
Proof. unfold omap. destruct o as [a| |]; cbn [bind]; intros E; try discriminate. exists a. split; [reflexivity|congruence]. Qed.

Lemma mul_ltb a b : (k * a <? k * b) = (a <? b).
Proof. destruct (Nat.ltb_spec a b), (Nat.ltb_spec (k * a) (k * b)); try reflexivity; exfalso; nia. Qed.
Lemma mul_leb a b : (k * a <=? k * b) = (a <=? b).
Proof. destruct (Nat.leb_spec a b), (Nat.leb_spec (k * a) (k * b)); try reflexivity; exfalso; nia. Qed.

Lemma nth_scale l i : nth i (map (Nat.mul k) l) 0 = k * nth i l 0.
Proof. rewrite <- (Nat.mul_0_r k) at 1. apply map_nth. Qed.

Lemma idx_scale l i : idx (map (Nat.mul k) l) i = omap (Nat.mul k) (idx l i).
Proof. unfold idx. rewrite nth_error_map. destruct (nth_error l i); reflexivity. Qed.

Lemma mfold_scale {S A} (h : S -> S) (f g : S -> A -> outcome S) l : (forall s x, g (h s) x = omap h (f s x)) ->
  forall s, mfold g l (h s) = omap h (mfold f l s).
Proof.
  intros H. induction l as [|x l IH]; intros s; [reflexivity|]. cbn [mfold]. rewrite H. unfold omap. destruct (f s x) as [s'| |]; cbn [bind]; try reflexivity. apply IH.
Qed.

Lemma bytes_cost_scale ts s : count_tokens_in_bytes ts (scale s) = omap (Nat.mul k) (count_tokens_in_bytes ts s).
Proof.
  unfold count_tokens_in_bytes, scale. cbn [st_token_set token_counts seq_counts]. destruct (byte_costs ts) as [bc| |]; cbn [bind]; try reflexivity.
  set (g1 := fun total (p : nat * token) => match snd p with Str [b] => o <- idx bc (b2n b);; c <- unwrap o;; n <- idx (map (Nat.mul k) (token_counts s)) (fst p);; Ret (total + c * n) | _ => Ret total end).
  set (f1 := fun total (p : nat * token) => match snd p with Str [b] => o <- idx bc (b2n b);; c <- unwrap o;; n <- idx (token_counts s) (fst p);; Ret (total + c * n) | _ => Ret total end).
  set (g2 := fun total (p : nat * sequence) => match seq_string (snd p) with [b] => o <- idx bc (b2n b);; c <- unwrap o;; n <- idx (map (Nat.mul k) (seq_counts s)) (fst p);; Ret (total + c * n) | _ => Ret total end).
  set (f2 := fun total (p : nat * sequence) => match seq_string (snd p) with [b] => o <- idx bc (b2n b);; c <- unwrap o;; n <- idx (seq_counts s) (fst p);; Ret (total + c * n) | _ => Ret total end).
  assert (H1 : forall l t, mfold g1 l (k * t) = omap (Nat.mul k) (mfold f1 l t)).
  { intros l t. apply mfold_scale. clear t. intros t [i [[|b [|c x]]|e]]; unfold g1, f1; cbn [snd fst]; try reflexivity.
    destruct (idx bc (b2n b)) as [o| |]; cbn [bind]; try reflexivity. destruct (unwrap o) as [c| |]; cbn [bind]; try reflexivity.
    rewrite idx_scale. unfold omap. destruct (idx (token_counts s) i) as [n| |]; cbn [bind]; try reflexivity. f_equal. lia. }
  assert (H2 : forall l t, mfold g2 l (k * t) = omap (Nat.mul k) (mfold f2 l t)).
  { intros l t. apply mfold_scale. clear t. intros t [i q]; unfold g2, f2; cbn [snd fst]. destruct (seq_string q) as [|b [|c x]]; try reflexivity.
    destruct (idx bc (b2n b)) as [o| |]; cbn [bind]; try reflexivity. destruct (unwrap o) as [c| |]; cbn [bind]; try reflexivity.
    rewrite idx_scale. unfold omap. destruct (idx (seq_counts s) i) as [n| |]; cbn [bind]; try reflexivity. f_equal. lia. }
  specialize (H1 (enum (tokens (st_token_set s))) 0). rewrite Nat.mul_0_r in H1. rewrite H1. unfold omap at 1.
  destruct (mfold f1 _ 0) as [t| |]; cbn [bind]; try reflexivity. apply H2.
Qed.

Lemma bpe_loop_scale s pairs : forall x, bpe_loop (scale s) pairs x = omap (fun p => (fst p, k * snd p)) (bpe_loop s pairs x).
Proof.
  induction pairs as [|p pairs IH]; intros x; cbn [bpe_loop].
  - unfold omap. cbn [bind fst snd]. rewrite Nat.mul_0_r. reflexivity.
  - change (st_token_set (scale s)) with (st_token_set s). cbv zeta. destruct (idx (tokens (st_token_set s)) (p / ntokens (st_token_set s))) as [t1| |]; cbn [bind]; try reflexivity.
    destruct (idx (tokens (st_token_set s)) (p mod ntokens (st_token_set s))) as [t2| |]; cbn [bind]; try reflexivity.
    destruct t1 as [s1|n1]; try reflexivity. destruct t2 as [s2|n2]; try reflexivity.
    destruct (is_valid_token (s1 ++ s2)) as [v| |]; cbn [bind]; try reflexivity. destruct v; [|apply IH].
    unfold scale at 1. cbn [pair_counts]. rewrite idx_scale. unfold omap. destruct (idx (pair_counts s) p) as [c| |]; reflexivity.
Qed.

Lemma add_bpe_scale s : add_token_bpe (scale s) = omap (option_map (fun p => (fst p, k * snd p))) (add_token_bpe s).
Proof.
  unfold add_token_bpe. cbv zeta. set (count := fun i => nth i (pair_counts s) 0).
  assert (E : stable_sort (fun x y => nth y (pair_counts (scale s)) 0 <=? nth x (pair_counts (scale s)) 0)
      (filter (fun i => 0 <? nth i (pair_counts (scale s)) 0) (seq 0 (length (pair_counts (scale s))))) =
    stable_sort (fun x y => count y <=? count x) (filter (fun i => 0 <? count i) (seq 0 (length (pair_counts s))))).
  { unfold scale. cbn [pair_counts]. rewrite map_length.
    rewrite (filter_ext (fun i => 0 <? nth i (map (Nat.mul k) (pair_counts s)) 0) (fun i => 0 <? count i)).
    - apply stable_sort_ext. intros x y. rewrite !nth_scale. apply mul_leb.
    - intros i. rewrite nth_scale, <- (Nat.mul_0_r k) at 1. apply mul_ltb. }
  rewrite E, bpe_loop_scale. unfold omap. destruct (bpe_loop s _ []) as [[x c]| |]; cbn [bind fst snd]; try reflexivity.
  destruct (bstr_eqb x []); [reflexivity|]. change (st_token_set (scale s)) with (st_token_set s). destruct (add_token (st_token_set s) x) as [[ts i]| |]; reflexivity.
Qed.

Lemma upd_scale l i c : upd i (fun _ => k * c) (map (Nat.mul k) l) = map (Nat.mul k) (upd i (fun _ => c) l).
Proof. revert i. induction l as [|x l IH]; intros [|i]; cbn [map upd]; try reflexivity. rewrite IH. reflexivity. Qed.

Lemma idx_upd_scale l i c : idx_upd (map (Nat.mul k) l) i (fun _ => k * c) = omap (map (Nat.mul k)) (idx_upd l i (fun _ => c)).
Proof. unfold idx_upd. rewrite map_length. destruct (i <? length l); [|reflexivity]. rewrite upd_scale. reflexivity. Qed.

Lemma simple_counts_scale s : simple_counts (scale s) = omap (map (Nat.mul k)) (simple_counts s).
Proof.
  unfold simple_counts, scale. cbn [st_token_set token_counts seq_counts].
  assert (E0 : repeat 0 256 = map (Nat.mul k) (repeat 0 256)).
  { generalize 256. intros n. induction n as [|n IH]; [reflexivity|]. cbn [repeat map]. rewrite <- IH, Nat.mul_0_r. reflexivity. }
  rewrite E0 at 1. generalize (repeat 0 256). intros z. clear E0.
  set (g1 := fun bc (p : nat * token) => match snd p with Str [b] => c <- idx (map (Nat.mul k) (token_counts s)) (fst p);; idx_upd bc (b2n b) (fun _ => c) | _ => Ret bc end).
  set (f1 := fun bc (p : nat * token) => match snd p with Str [b] => c <- idx (token_counts s) (fst p);; idx_upd bc (b2n b) (fun _ => c) | _ => Ret bc end).
  set (g2 := fun bc (p : nat * sequence) => match seq_string (snd p) with [b] => c <- idx (map (Nat.mul k) (seq_counts s)) (fst p);; idx_upd bc (b2n b) (fun _ => c) | _ => Ret bc end).
  set (f2 := fun bc (p : nat * sequence) => match seq_string (snd p) with [b] => c <- idx (seq_counts s) (fst p);; idx_upd bc (b2n b) (fun _ => c) | _ => Ret bc end).
  assert (H1 : forall l t, mfold g1 l (map (Nat.mul k) t) = omap (map (Nat.mul k)) (mfold f1 l t)).
  { intros l t. apply mfold_scale. clear t. intros t [i [[|b [|c x]]|e]]; unfold g1, f1; cbn [snd fst]; try reflexivity.
    rewrite idx_scale. unfold omap at 1. destruct (idx (token_counts s) i) as [n| |]; cbn [bind]; try reflexivity. apply idx_upd_scale. }
  assert (H2 : forall l t, mfold g2 l (map (Nat.mul k) t) = omap (map (Nat.mul k)) (mfold f2 l t)).
  { intros l t. apply mfold_scale. clear t. intros t [i q]; unfold g2, f2; cbn [snd fst]. destruct (seq_string q) as [|b [|c x]]; try reflexivity.
    rewrite idx_scale. unfold omap at 1. destruct (idx (seq_counts s) i) as [n| |]; cbn [bind]; try reflexivity. apply idx_upd_scale. }
  rewrite H1. unfold omap at 1. destruct (mfold f1 _ z) as [t| |]; cbn [bind]; try reflexivity. apply H2.
Qed.

(** The byte optimizer does not see the scale. *)
Definition scale_free (bo : bytes_optimizer) : Prop := forall s n, bo (scale s) n = bo s n.

Lemma simple_scale_free : scale_free simple_bytes.
Proof.
  intros s n. unfold simple_bytes. change (st_token_set (scale s)) with (st_token_set s). cbv zeta. destruct (checked_sub n _) as [m| |]; cbn [bind]; try reflexivity.
  rewrite simple_counts_scale. unfold omap. destruct (simple_counts s) as [counts| |]; cbn [bind]; try reflexivity.
  rewrite (stable_sort_ext (fun x y => nth (b2n y) (map (Nat.mul k) counts) 0 <=? nth (b2n x) (map (Nat.mul k) counts) 0) (fun x y => nth (b2n y) counts 0 <=? nth (b2n x) counts 0) all_bytes);
    [reflexivity|]. intros x y. rewrite !nth_scale. apply mul_leb.
Qed.

Lemma optimizer_scale_free t : t <> BytesHuff -> scale_free (optimizer_for t).
Proof. intros Ht. destruct t; try exact simple_scale_free; [intros s n; reflexivity|congruence]. Qed.

(** ** Programs whose questions are answered by the scaled statistics *)
Inductive sim {A B} (R : A -> B -> Prop) : prog A -> prog B -> Prop :=
| sim_ret a b : R a b -> sim R (PDone (Ret a)) (PDone (Ret b))
| sim_panic : sim R (PDone Panic) (PDone Panic)
| sim_fuel : sim R (PDone OutOfFuel) (PDone OutOfFuel)
| sim_ask r f g : (forall a, sim R (f a) (g (scale a))) -> sim R (PAsk r f) (PAsk r g)
| sim_save ts p q : sim R p q -> sim R (PSave ts p) (PSave ts q).

Lemma sim_bind {A B C D} (R : A -> B -> Prop) (S : C -> D -> Prop) p q f g : sim R p q -> (forall a b, R a b -> sim S (f a) (g b)) -> sim S (pbind p f) (pbind q g).
Proof.
  intros H Hf. induction H as [a b Hab| | |r f' g' _ IH|ts p q _ IH]; cbn [pbind].
  - apply Hf, Hab.
  - constructor.
  - constructor.
  - constructor. intros a. apply IH.
  - constructor. exact IH.
Qed.

Lemma sim_done {A B} (h : A -> B) (o : outcome A) : sim (fun a b => b = h a) (PDone o) (PDone (omap h o)).
Proof. destruct o; cbn; constructor. reflexivity. Qed.

Lemma sim_same {A} (o : outcome A) : sim eq (PDone o) (PDone o).
Proof. destruct o; constructor. reflexivity. Qed.

Lemma sim_stats ts : sim (fun s s' => s' = scale s) (get_stats ts) (get_stats ts).
Proof. constructor. intros a. constructor. reflexivity. Qed.
Lemma sim_stats_pairs ts : sim (fun s s' => s' = scale s) (get_stats_with_pairs ts) (get_stats_with_pairs ts).
Proof. constructor. intros a. constructor. reflexivity. Qed.

Section Programs.
Variables (bo : bytes_optimizer) (order : smap nat -> list bstr -> list bstr) (clock : nat -> bool).
Hypothesis Hbo : scale_free bo.

Lemma add_byte_scale s : add_byte bo (scale s) = omap (option_map (fun p => (fst p, (Z.of_nat k * snd p)%Z))) (add_byte bo s).
Proof.
  unfold add_byte. change (st_token_set (scale s)) with (st_token_set s). cbv zeta. rewrite bytes_cost_scale. unfold omap at 1.
  destruct (count_tokens_in_bytes (st_token_set s) s) as [old| |]; cbn [bind]; try reflexivity.
  destruct (checked_sub _ _) as [n| |]; cbn [bind]; try reflexivity. rewrite Hbo. destruct (bo s (n + 1)) as [new| |]; cbn [bind]; try reflexivity.
  destruct (ntokens new =? ntokens (st_token_set s)); [reflexivity|]. rewrite bytes_cost_scale. unfold omap at 1.
  destruct (count_tokens_in_bytes new s) as [c| |]; cbn [bind omap option_map fst snd]; try reflexivity. do 3 f_equal. lia.
Qed.

Lemma sim_add ts : sim eq (opt_add_token bo ts) (opt_add_token bo ts).
Proof.
  unfold opt_add_token. eapply sim_bind; [apply sim_stats_pairs|]. intros s s' ->. rewrite add_byte_scale, add_bpe_scale.
  eapply sim_bind; [apply sim_done|]. intros b b' ->. eapply sim_bind; [apply sim_done|]. intros c c' ->. constructor.
  destruct b as [[tb cb]|], c as [[tp cp]|]; cbn [option_map fst snd]; try reflexivity.
  replace (Z.of_nat (k * cp) <? Z.of_nat k * cb)%Z with (Z.of_nat cp <? cb)%Z; [reflexivity|].
  rewrite Nat2Z.inj_mul. destruct (Z.ltb_spec (Z.of_nat cp) cb), (Z.ltb_spec (Z.of_nat k * Z.of_nat cp) (Z.of_nat k * cb)); try reflexivity; exfalso; nia.
Qed.

Lemma total_scale s s' : (total_tokens (scale s) <? total_tokens (scale s')) = (total_tokens s <? total_tokens s').
Proof. apply mul_ltb. Qed.

Lemma sim_trade ts n s : sim (fun o o' => o' = option_map scale o) (trade_byte bo ts n s) (trade_byte bo ts n (scale s)).
Proof.
  unfold trade_byte. eapply sim_bind; [apply sim_same|]. intros m m' <-. destruct (min_bytes_ext_tokens ts <? m); [|constructor; reflexivity].
  eapply sim_bind; [apply sim_same|]. intros m1 m1' <-. rewrite Hbo. eapply sim_bind; [apply sim_same|]. intros new new' <-.
  eapply sim_bind; [apply sim_same|]. intros n1 n1' <-. eapply sim_bind; [apply sim_same|]. intros u u' _.
  eapply sim_bind; [apply sim_stats_pairs|]. intros ns ns' ->. rewrite add_bpe_scale. eapply sim_bind; [apply sim_done|]. intros bp bp' ->.
  destruct bp as [[t c]|]; cbn [option_map fst snd]; [|constructor; reflexivity].
  eapply sim_bind; [apply sim_stats|]. intros s2 s2' ->. rewrite total_scale. constructor. destruct (total_tokens s2 <? total_tokens s); reflexivity.
Qed.

Definition same_step (x x' : option stats * smap nat) : Prop := fst x' = option_map scale (fst x) /\ snd x' = snd x.

Lemma sim_replace ts n s l : forall rc, sim same_step (replace_loop bo ts n s l rc) (replace_loop bo ts n (scale s) l rc).
Proof.
  induction l as [|x l IH]; intros rc; cbn [replace_loop]; [constructor; split; reflexivity|]. cbv zeta.
  eapply sim_bind; [apply sim_same|]. intros i i' <-. eapply sim_bind; [apply sim_same|]. intros new new' <-.
  eapply sim_bind; [apply sim_same|]. intros n1 n1' <-. eapply sim_bind; [apply sim_same|]. intros u u' _.
  eapply sim_bind; [apply sim_add|]. intros added added' <-. destruct added as [newer|]; [|apply IH].
  eapply sim_bind; [apply sim_stats|]. intros s2 s2' ->. rewrite total_scale. destruct (total_tokens s2 <? total_tokens s); [constructor; split; reflexivity|apply IH].
Qed.

Lemma sim_remove_add ts n rc : sim same_step (remove_add_token bo order ts n rc) (remove_add_token bo order ts n rc).
Proof.
  unfold remove_add_token. destruct (ntokens ts <? n).
  - eapply sim_bind; [apply sim_add|]. intros added added' <-. destruct added as [new|]; [|constructor; split; reflexivity].
    eapply sim_bind; [apply sim_stats|]. intros s s' ->. constructor; split; reflexivity.
  - eapply sim_bind; [apply sim_same|]. intros u u' _. eapply sim_bind; [apply sim_stats|]. intros s s' ->.
    eapply sim_bind; [apply sim_trade|]. intros t t' ->. destruct t as [ns|]; cbn [option_map]; [constructor; split; reflexivity|apply sim_replace].
Qed.

Lemma sim_step ts n rc : sim eq (optimization_step bo order ts n rc) (optimization_step bo order ts n rc).
Proof.
  unfold optimization_step. eapply sim_bind; [apply sim_stats|]. intros s s' ->. eapply sim_bind; [apply sim_same|]. intros m m' <-.
  rewrite Hbo. eapply sim_bind; [apply sim_same|]. intros new new' <-. eapply sim_bind; [apply sim_stats|]. intros ns ns' ->. rewrite total_scale.
  destruct (total_tokens ns <? total_tokens s); [constructor; reflexivity|]. eapply sim_bind; [apply sim_remove_add|].
  intros [r rc1] [r' rc1'] (E1 & E2). cbn [fst snd] in E1, E2. subst. destruct r as [s2|]; cbn [option_map]; [|constructor; reflexivity].
  change (st_token_set (scale s2)) with (st_token_set s2). eapply sim_bind; [apply sim_same|]. intros u u' _. constructor. reflexivity.
Qed.

Lemma sim_loop fuel : forall round ts n rc, sim eq (optimize_loop bo order clock fuel round ts n rc) (optimize_loop bo order clock fuel round ts n rc).
Proof.
  induction fuel as [|fuel IH]; intros round ts n rc; cbn [optimize_loop]; [constructor|]. eapply sim_bind; [apply sim_step|].
  intros [r rc1] x <-. destruct r as [new|]; [|constructor; reflexivity]. destruct (clock round); [constructor|]; apply IH.
Qed.

Lemma sim_impl fuel ts n : sim (fun s s' => s' = scale s) (optimize_impl bo order clock fuel ts n) (optimize_impl bo order clock fuel ts n).
Proof.
  unfold optimize_impl. eapply sim_bind; [apply sim_stats|]. intros s s' _. eapply sim_bind; [apply sim_loop|]. intros t t' <-.
  eapply sim_bind; [apply sim_same|]. intros t' t'' <-. apply sim_stats.
Qed.
End Programs.

Lemma sim_tokenset order clock fuel n p t pre : t <> BytesHuff ->
  sim (fun s s' => s' = scale s) (optimize_tokenset order clock fuel n p t pre) (optimize_tokenset order clock fuel n p t pre).
Proof.
  intros Ht. unfold optimize_tokenset. eapply sim_bind with (R := eq).
  - unfold initial_set. destruct pre as [ts|]; [constructor; reflexivity|]. destruct t; try (constructor; reflexivity). congruence.
  - intros ts ts' <-. apply sim_impl, optimizer_scale_free, Ht.
Qed.

(** ** The answers for repeated data *)
Lemma zadd_scale j l : zadd l (map (Nat.mul j) l) = map (Nat.mul (S j)) l.
Proof. induction l as [|x l IH]; [reflexivity|]. cbn [map zadd]. rewrite IH. reflexivity. Qed.
End Scale.

Lemma tally_times ts tk init1 init2 l k : tokenizer_new ts = Ret tk -> seqs_in_range ts -> 1 <= k ->
  tally ts tk init2 (times k l) = scale k init2 (tally ts tk init1 l).
Proof.
  intros Htk Hr Hk. assert (G : forall init, token_counts (tally ts tk init l) = token_counts (tally ts tk None l) /\ seq_counts (tally ts tk init l) = seq_counts (tally ts tk None l) /\
      pair_counts (tally ts tk init l) = pair_counts (tally ts tk None l) /\ total_tokens (tally ts tk init l) = total_tokens (tally ts tk None l) /\
      scanned_bytes (tally ts tk init l) = scanned_bytes (tally ts tk None l) /\ st_token_set (tally ts tk init l) = ts /\ initial_size (tally ts tk init l) = init).
  { intros init. induction l as [|x l' IH] using rev_ind; [repeat split|]. rewrite !(tally_snoc ts tk). destruct IH as (H1 & H2 & H3 & H4 & H5 & H6 & H7).
    unfold madd. cbn [token_counts seq_counts pair_counts total_tokens scanned_bytes st_token_set initial_size]. rewrite H1, H2, H3, H4, H5. auto 10. }
  assert (E : forall j init, tally ts tk init (times (S j) l) = scale (S j) init (tally ts tk None l)).
  { induction j as [|j IH]; intros init.
    - unfold times. cbn [repeat concat]. rewrite app_nil_r. destruct (G init) as (H1 & H2 & H3 & H4 & H5 & H6 & H7). destruct (G None) as (_ & _ & _ & _ & _ & H6' & _).
      unfold scale. rewrite <- H1, <- H2, <- H3, <- H4, <- H5, H6', !Nat.mul_1_l.
      assert (M1 : forall y, map (Nat.mul 1) y = y) by (induction y as [|x y IHy]; [reflexivity|]; cbn [map]; rewrite IHy, Nat.mul_1_l; reflexivity).
      rewrite !M1. destruct (tally ts tk init l) as [a1 a2 a3 a4 a5 a6 a7]. cbn in *. subst. reflexivity.
    - change (times (S (S j)) l) with (l ++ times (S j) l). rewrite (tally_app ts tk Htk Hr), (IH None). destruct (G init) as (H1 & H2 & H3 & H4 & H5 & H6 & H7). destruct (G None) as (_ & _ & _ & _ & _ & H6' & _).
      unfold madd, scale. cbn [token_counts seq_counts pair_counts total_tokens scanned_bytes st_token_set initial_size]. rewrite H1, H2, H3, H4, H5, H6, H6', H7, !zadd_scale. reflexivity. }
  destruct k as [|j]; [lia|]. rewrite E. destruct (G init1) as (H1 & H2 & H3 & H4 & H5 & H6 & H7). destruct (G None) as (_ & _ & _ & _ & _ & H6' & _).
  unfold scale. rewrite H1, H2, H3, H4, H5, H6, H6'. reflexivity.
Qed.

Lemma answer_times init1 init2 l k r : 1 <= k -> (exists ss, shaped (requested r) ss) -> answer (times k l) init2 r = omap (scale k init2) (answer l init1 r).
Proof.
  intros Hk (ss & S). unfold answer, omap. destruct (ts_sort (requested r)) as [ts'| |] eqn:E; cbn [bind]; try reflexivity.
  destruct (shaped_sort _ _ _ S E) as (ss' & S' & _). destruct (tokenizer_new ts') as [tk| |] eqn:Et; try (unfold tokenize_file_sync; rewrite Et; reflexivity).
  rewrite !(sync_eq ts' tk Et (sh_range _ _ S')). cbn [bind]. rewrite (tally_times ts' tk init1 init2 l k Et (sh_range _ _ S') Hk). destruct r; reflexivity.
Qed.

Definition both {A B} (R : A -> B -> Prop) (x : outcome A) (y : outcome B) : Prop :=
  match x, y with Ret a, Ret b => R a b | Panic, Panic => True | OutOfFuel, OutOfFuel => True | _, _ => False end.

Lemma okT_times {A B} k init1 init2 l l' (R : A -> B -> Prop) p q I (Q : list tokenset -> A -> Prop) : 1 <= k -> Permutation (times k l) l' -> sim k init2 R p q ->
  forall sv, okT l init1 p sv I Q -> both R (outcome_of l init1 p) (outcome_of l' init2 q) /\ saves_of l init1 p = saves_of l' init2 q.
Proof.
  intros Hk HP H. induction H as [a b Hab| | |r f g _ IH|ts p q _ IH]; intros sv Hok; cbn in *.
  - split; [exact Hab|reflexivity].
  - split; [constructor|reflexivity].
  - split; [constructor|reflexivity].
  - destruct Hok as (_ & (Ha & Hu) & Hok). rewrite <- (answer_perm _ _ init2 r Ha HP), (answer_times init1 init2 l k r Hk Ha). unfold omap.
    destruct (answer l init1 r) as [a| |] eqn:E; cbn [bind].
    + apply (IH a sv), Hok, fresh_answer_iff, E.
    + split; [constructor|reflexivity].
    + split; [constructor|reflexivity].
  - destruct Hok as (_ & Hok). destruct (IH _ Hok) as (E1 & E2). rewrite E2. split; [exact E1|reflexivity].
Qed.

(** A run on some samples gives the result that the program by hand would give on the same samples repeated and reordered. *)
Lemma run_times threads total k samples samples' init init' order clock n p t pre rounds m s :
  1 <= threads -> 1 <= k -> Permutation (times k samples) samples' -> t <> BytesHuff -> shuffles order -> supported t n -> good_start n p t pre -> round_bound samples n <= rounds ->
  optimizing threads total samples init order clock n p t pre rounds m -> returned m s ->
  outcome_of samples' init' (optimize_tokenset order clock rounds n p t pre) = Ret (scale k init' s) /\
  m_saved m = saves_of samples' init' (optimize_tokenset order clock rounds n p t pre).
Proof.
  intros Ht Hk HP Hh Ho Hs Hp Hr M R. pose proof (optimize_okT samples init order clock n p t pre rounds Ho Hs Hp Hr) as K.
  destruct (okT_outcome _ threads total samples init _ _ Ht K m M) as (S & O). unfold returned in R. rewrite R in S, O. cbn [outcome_of saves_of] in S, O.
  rewrite app_nil_r in S. destruct (okT_times k init init' samples samples' _ _ _ _ _ Hk HP (sim_tokenset k init' Hk order clock rounds n p t pre Hh) [] K) as (E1 & E2).
  rewrite <- O in E1. unfold both in E1. rewrite S, <- E2. split; [|reflexivity].
  destruct (outcome_of samples' init' _) as [b| |]; try contradiction. rewrite E1. reflexivity.
Qed.

(** ** C116 *)
Theorem C116_only_proportions_matter :
  forall a b threads1 threads2 total1 total2 samples1 samples2 init1 init2 order clock1 clock2 n p t pre rounds1 rounds2 m1 m2 s1 s2,
  same_proportions a b samples1 samples2 -> t <> BytesHuff ->
  1 <= threads1 -> 1 <= threads2 -> shuffles order -> supported t n -> good_start n p t pre ->
  round_bound samples1 n <= rounds1 -> round_bound samples2 n <= rounds2 ->
  optimizing threads1 total1 samples1 init1 order clock1 n p t pre rounds1 m1 -> returned m1 s1 ->
  optimizing threads2 total2 samples2 init2 order clock2 n p t pre rounds2 m2 -> returned m2 s2 ->
  st_token_set s1 = st_token_set s2 /\
  a * total_tokens s1 = b * total_tokens s2 /\ a * scanned_bytes s1 = b * scanned_bytes s2 /\
  map (Nat.mul a) (token_counts s1) = map (Nat.mul b) (token_counts s2) /\
  map (Nat.mul a) (seq_counts s1) = map (Nat.mul b) (seq_counts s2) /\
  (clock1 = clock2 -> rounds1 = rounds2 -> m_saved m1 = m_saved m2).
Proof.
  intros a b th1 th2 total1 total2 l1 l2 i1 i2 order clock1 clock2 n p t pre r1 r2 m1 m2 s1 s2 (Ha & Hb & HP) Hh H1 H2 Ho Hs Hp Hr1 Hr2 M1 R1 M2 R2.
  destruct (run_times th1 total1 a l1 _ i1 None order clock1 n p t pre r1 m1 s1 H1 Ha HP Hh Ho Hs Hp Hr1 M1 R1) as (O1 & S1).
  destruct (run_times th2 total2 b l2 _ i2 None order clock2 n p t pre r2 m2 s2 H2 Hb (Permutation_refl _) Hh Ho Hs Hp Hr2 M2 R2) as (O2 & S2).
  assert (X : forall r c x, outcome_of (times b l2) None (optimize_tokenset order c r n p t pre) = Ret x -> r <= r1 + r2 ->
      outcome_of (times b l2) None (optimize_tokenset order clock1 (r1 + r2) n p t pre) = Ret x).
  { intros r c x E Hle. replace (r1 + r2) with (r + (r1 + r2 - r)) by lia. rewrite (tokenset_clock _ _ _ clock1 c), tokenset_fuel; [exact E|]. rewrite E. discriminate. }
  assert (E : Ret (scale a None s1) = Ret (scale b None s2)).
  { rewrite <- (X r1 clock1 _ O1) by lia. rewrite <- (X r2 clock2 _ O2) by lia. reflexivity. }
  injection E as E1 E2 E3 E4 E5 _. split; [exact E1|]. split; [exact E2|]. split; [exact E3|]. split; [exact E4|]. split; [exact E5|].
  intros <- <-. rewrite S1, S2. reflexivity.
Qed.

(** Three copies of a file are as good as two. *)
Lemma C116_hypotheses_met : exists m1 m2 s1 s2,
  same_proportions 3 2 [[x61; x62]; [x61; x62]] [[x61; x62]; [x61; x62]; [x61; x62]] /\
  optimizing 4 3 [[x61; x62]; [x61; x62]] None (fun _ l => rev l) (fun _ => true) 10 Raw Bits1 None (round_bound [[x61; x62]; [x61; x62]] 10) m1 /\ returned m1 s1 /\
  optimizing 1 3 [[x61; x62]; [x61; x62]; [x61; x62]] None (fun _ l => rev l) (fun _ => false) 10 Raw Bits1 None (round_bound [[x61; x62]; [x61; x62]; [x61; x62]] 10) m2 /\ returned m2 s2 /\
  st_token_set s1 = st_token_set s2 /\ 3 * total_tokens s1 = 2 * total_tokens s2.
Proof.
  assert (Hr : shuffles (fun _ l => rev l)) by (intros m l; symmetry; apply Permutation_rev).
  assert (Hn1 : ~ In [] [[x61; x62]; [x61; x62]]) by (cbn; intuition discriminate).
  assert (Hn2 : ~ In [] [[x61; x62]; [x61; x62]; [x61; x62]]) by (cbn; intuition discriminate).
  assert (G : supported Bits1 10) by (unfold supported; cbn; lia).
  assert (P : same_proportions 3 2 [[x61; x62]; [x61; x62]] [[x61; x62]; [x61; x62]; [x61; x62]]) by (split; [lia|split; [lia|apply Permutation_refl]]).
  destruct (proj1 (C43_optimization_never_panics_partial 4 3 [[x61; x62]; [x61; x62]] None (fun _ l => rev l) (fun _ => true) 10 Raw Bits1 None _ ltac:(lia) Hn1 Hr G I (le_n _))) as (m1 & s1 & A1 & B1).
  destruct (proj1 (C43_optimization_never_panics_partial 1 3 [[x61; x62]; [x61; x62]; [x61; x62]] None (fun _ l => rev l) (fun _ => false) 10 Raw Bits1 None _ ltac:(lia) Hn2 Hr G I (le_n _))) as (m2 & s2 & A2 & B2).
  exists m1, m2, s1, s2. split; [exact P|]. split; [exact A1|]. split; [exact B1|]. split; [exact A2|]. split; [exact B2|].
  destruct (C116_only_proportions_matter 3 2 4 1 _ _ _ _ _ _ _ _ _ _ _ _ _ _ _ m1 m2 s1 s2 P (fun E : Bits1 = BytesHuff => ltac:(discriminate E)) ltac:(lia) ltac:(lia) Hr G (I : good_start 10 Raw Bits1 None) (le_n _) (le_n _) A1 B1 A2 B2) as (E1 & E2 & _).
  split; [exact E1|exact E2].
Qed.

(** Proportions that agree and proportions that do not. *)
Example same_proportions_met : same_proportions 2 1 [[x61]; [x62; x63]] [[x62; x63]; [x61]; [x61]; [x62; x63]] /\
  ~ same_proportions 1 1 [[x61]; [x62]] [[x61]; [x61]].
Proof.
  split.
  - split; [lia|split; [lia|]]. cbn. apply perm_swap.
  - intros (_ & _ & H). cbn in H. assert (X : In [x62] [[x61]; [x61]]) by (apply (Permutation_in (l := [[x61]; [x62]])); [exact H|right; left; reflexivity]). cbn in X. intuition discriminate.
Qed.

