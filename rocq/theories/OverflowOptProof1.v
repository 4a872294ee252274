(** * Machine arithmetic in src/optimize_bytes.rs and in counting bytes. *)
From Coq Require Import ZArith.
From Verif Require Import Base BaseLemmas TokenSetModel TokenizerModel TokSpec SortLemmas TokenizerTheory TokenSetProof TokenSetProof2
  PropTokenizer StatsAlgebra BatchModel CacheModel OptBytesModel OptBytesProof OptBytesProof2 OptBytesProof3 OptBytesProof4
  OptimizeModel OptimizeProof1 OptimizeProof2 OptimizeProof3 OptimizeProof5 OverflowModel OverflowOptModel.

Lemma mfold_ref {A B} (P : B -> Prop) (f g : B -> A -> outcome B) l :
  (forall b a b', In a l -> P b -> f b a = Ret b' -> g b a = Ret b' /\ P b') ->
  forall b r, P b -> mfold f l b = Ret r -> mfold g l b = Ret r /\ P r.
Proof.
  induction l as [|a l IH]; intros H b r Hb E; cbn [mfold] in *.
  - injection E as <-. auto.
  - apply bind_ret in E as (b' & E1 & E2). destruct (H b a b' (or_introl eq_refl) Hb E1) as (G & Pb). rewrite G. cbn [bind].
    apply IH; auto. intros b0 a0 b1 Hi. apply H. right; exact Hi.
Qed.

Lemma mfold_same {A B} (f g : B -> A -> outcome B) l b r :
  (forall b a b', In a l -> f b a = Ret b' -> g b a = Ret b') -> mfold f l b = Ret r -> mfold g l b = Ret r.
Proof.
  intros H E. apply (mfold_ref (fun _ => True) f g l) with (b := b); auto.
Qed.

(** Totals that only grow: the last one decides. *)
Lemma mfold_grow {A} (B : nat) (f g : nat -> A -> outcome nat) l :
  (forall b a b', f b a = Ret b' -> b <= b' /\ (b' < B -> g b a = Ret b')) ->
  forall b r, mfold f l b = Ret r -> b <= r /\ (r < B -> mfold g l b = Ret r).
Proof.
  intros H. induction l as [|a l IH]; intros b r E; cbn [mfold] in *.
  - injection E as <-. auto.
  - apply bind_ret in E as (b' & E1 & E2). destruct (H _ _ _ E1) as (L1 & G1). destruct (IH _ _ E2) as (L2 & G2).
    split; [lia|]. intros Hr. rewrite G1 by lia. cbn [bind]. auto.
Qed.

Lemma mmap_ret {A B} (f : A -> outcome B) (g : A -> B) l : (forall a, In a l -> f a = Ret (g a)) -> mmap f l = Ret (map g l).
Proof.
  induction l as [|a l IH]; intros H; [reflexivity|]. cbn [mmap map]. rewrite H by (left; reflexivity). cbn [bind].
  rewrite IH by (intros x Hx; apply H; right; exact Hx). reflexivity.
Qed.

(** Sorting by keys *)
Lemma stable_sort_map {A B} (f : A -> B) (le : B -> B -> bool) l : stable_sort le (map f l) = map f (stable_sort (fun x y => le (f x) (f y)) l).
Proof.
  unfold stable_sort. induction l as [|a l IH]; [reflexivity|]. cbn [map fold_right]. rewrite IH.
  generalize (fold_right (insert_stable (fun x y => le (f x) (f y))) [] l). intros m. clear. induction m as [|b m IH]; [reflexivity|].
  cbn [insert_stable map]. destruct (le (f a) (f b)); cbn [map]; [reflexivity|]. rewrite IH. reflexivity.
Qed.

Lemma sort_by_key_eq {A} (key : A -> outcome Z) (k : A -> Z) (le : A -> A -> bool) l : (forall a, In a l -> key a = Ret (k a)) ->
  (forall x y, le x y = (k x <=? k y)%Z) -> sort_by_key key l = Ret (stable_sort le l).
Proof.
  intros Hk Hle. unfold sort_by_key. rewrite (mmap_ret _ (fun a => (k a, a))) by (intros a Ha; rewrite Hk by exact Ha; reflexivity).
  cbn [bind]. f_equal. rewrite stable_sort_map. rewrite map_map. cbn [snd]. rewrite map_id. apply stable_sort_ext. intros x y. cbn [fst]. symmetry. apply Hle.
Qed.

Section Machine.
Variables (bd : build) (M : nat).

Lemma u64_small x : x < M -> u64 bd M x = Ret x.
Proof. intros H. unfold u64. rewrite (proj2 (Nat.ltb_lt _ _) H). reflexivity. Qed.
Lemma uadd_small a b : a + b < M -> uadd bd M a b = Ret (a + b).
Proof. apply u64_small. Qed.
Lemma umul_small a b : a * b < M -> umul bd M a b = Ret (a * b).
Proof. apply u64_small. Qed.
Lemma usub_ref a b c : checked_sub a b = Ret c -> usub bd M a b = Ret c.
Proof. unfold checked_sub, usub. destruct (b <=? a); [auto|discriminate]. Qed.
Lemma as_i64_small x : 2 * x < M -> as_i64 M x = Z.of_nat x.
Proof. intros H. unfold as_i64. rewrite (proj2 (Nat.ltb_lt _ _) H). reflexivity. Qed.
Lemma i64_small z : (2 * Z.abs z < Z.of_nat M - 1)%Z -> i64 bd M z = Ret z.
Proof.
  intros H. unfold i64. cbv zeta. pose proof (Z.div_mod (Z.of_nat M) 2 ltac:(lia)) as D. pose proof (Z.mod_pos_bound (Z.of_nat M) 2 ltac:(lia)) as D'.
  set (h := (Z.of_nat M / 2)%Z) in *.
  rewrite (proj2 (Z.leb_le (- h) z)) by lia. rewrite (proj2 (Z.ltb_lt z h)) by lia. reflexivity.
Qed.
Lemma neg_count x : 2 * x + 1 < M -> ineg bd M (as_i64 M x) = Ret (- Z.of_nat x)%Z.
Proof. intros H. rewrite as_i64_small by lia. apply i64_small. lia. Qed.

(** ** Merging nodes *)
Definition nsum (nodes : list hnode) : nat := sum (map h_count nodes).

Lemma sum_cons a l : sum (a :: l) = a + sum l.
Proof. reflexivity. Qed.

Lemma nth_two (l : list nat) : forall i a b, nth_error l i = Some a -> nth_error l (i + 1) = Some b -> a + b <= sum l.
Proof.
  induction l as [|x l IH]; intros [|i] a b Ha Hb; try discriminate; rewrite sum_cons.
  - cbn in Ha. injection Ha as ->. change (nth_error l 0 = Some b) in Hb. apply nth_error_In, in_sum in Hb. lia.
  - cbn [Nat.add nth_error] in *. specialize (IH i a b Ha Hb). lia.
Qed.

Lemma nodes_two nodes i a b : nth_error nodes i = Some a -> nth_error nodes (i + 1) = Some b -> h_count a + h_count b <= nsum nodes.
Proof. intros Ha Hb. unfold nsum. eapply nth_two; rewrite nth_error_map; [rewrite Ha|rewrite Hb]; reflexivity. Qed.

Lemma idx_some {A} (l : list A) i x : idx l i = Ret x <-> nth_error l i = Some x.
Proof. unfold idx. destruct (nth_error l i); cbn; split; intros H; congruence. Qed.

Lemma best_pair_w nodes r : nsum nodes < M -> best_pair nodes = Ret r -> w_best_pair bd M nodes = Ret r.
Proof.
  intros HM. unfold best_pair, w_best_pair. apply mfold_same. intros best i best' _ E.
  apply bind_ret in E as (a & Ea & E). apply bind_ret in E as (b & Eb & E). rewrite Ea. cbn [bind]. rewrite Eb. cbn [bind].
  apply idx_some in Ea, Eb. pose proof (nodes_two _ _ _ _ Ea Eb). rewrite uadd_small by lia. exact E.
Qed.

Lemma nsum_merge nodes i a b rest x r : nth_error nodes (i + 1) = Some b -> vremove nodes (i + 1) = Ret rest -> nth_error rest i = Some a ->
  idx_upd rest i (fun _ => x) = Ret r -> h_count x = h_count a + h_count b -> nsum r = nsum nodes /\ h_count a + h_count b <= nsum nodes.
Proof.
  intros Hb Hv Ha Hr Hx. assert (Hlt : i + 1 < length nodes) by (apply nth_error_Some; congruence).
  destruct (split_at nodes (i + 1) Hlt) as (l1 & y & l2 & -> & Hl).
  rewrite nth_error_app2 in Hb by lia. rewrite Hl, Nat.sub_diag in Hb. cbn in Hb. injection Hb as ->.
  rewrite <- Hl in Hv. rewrite vremove_mid in Hv. injection Hv as <-.
  assert (Hlt2 : i < length l1) by lia. destruct (split_at l1 i Hlt2) as (l3 & z & l4 & -> & Hl3).
  rewrite <- app_assoc in Ha. cbn [app] in Ha. rewrite nth_error_app2 in Ha by lia. rewrite Hl3, Nat.sub_diag in Ha. cbn in Ha. injection Ha as ->.
  unfold idx_upd in Hr. destruct (i <? length ((l3 ++ a :: l4) ++ l2)); [|discriminate]. injection Hr as <-.
  rewrite <- app_assoc. cbn [app]. rewrite <- Hl3, upd_mid. unfold nsum. rewrite !map_app. cbn [map]. rewrite !map_app. cbn [map]. rewrite !sum_app, !sum_cons, ?sum_app, ?sum_cons.
  rewrite Hx. lia.
Qed.

Lemma merge_nodes_w parts fuel : forall nodes r, nsum nodes < M -> merge_nodes fuel parts nodes = Ret r -> w_merge_nodes bd M fuel parts nodes = Ret r.
Proof.
  induction fuel as [|fuel IH]; intros nodes r HM; cbn [merge_nodes w_merge_nodes]; destruct (parts <? length nodes); auto.
  intros E. apply bind_ret in E as (best & E1 & E). apply bind_ret in E as ([m i] & E2 & E).
  rewrite (best_pair_w _ _ HM E1). cbn [bind]. rewrite E2. cbn [bind].
  apply bind_ret in E as (sec & E3 & E). apply bind_ret in E as (rest & E4 & E). apply bind_ret in E as (fst1 & E5 & E). apply bind_ret in E as (nodes' & E6 & E).
  rewrite E3. cbn [bind]. rewrite E4. cbn [bind]. rewrite E5. cbn [bind]. apply idx_some in E3, E5.
  destruct (nsum_merge _ _ _ _ _ _ _ E3 E4 E5 E6 eq_refl) as (Es & Hle). rewrite uadd_small by lia. cbn [bind]. rewrite E6. cbn [bind].
  apply IH; [lia|exact E].
Qed.

Definition tsum (counts : ctable) : nat := sum (map snd counts).

Lemma optimize_splits_w counts parts r : tsum counts < M -> optimize_splits counts parts = Ret r -> w_optimize_splits bd M counts parts = Ret r.
Proof.
  intros HM E. unfold optimize_splits in E. unfold w_optimize_splits. apply bind_ret in E as (nodes & E1 & E).
  rewrite (merge_nodes_w _ _ _ nodes); [exact E| |exact E1]. unfold nsum. rewrite map_map. exact HM.
Qed.

Lemma sum_firstn l k : sum (firstn k l) <= sum l.
Proof. revert k. induction l as [|x l IH]; intros [|k]; cbn [firstn]; rewrite ?sum_cons; cbn; try lia. specialize (IH k). fold (sum (firstn k l)). fold (sum l). lia. Qed.
Lemma sum_skipn l k : sum (skipn k l) <= sum l.
Proof. revert k. induction l as [|x l IH]; intros [|k]; cbn [skipn]; rewrite ?sum_cons; try lia. specialize (IH k). lia. Qed.

Lemma sub_table_sum counts splits i sp sub : sub_table counts splits i sp = Ret (Some sub) -> tsum sub <= tsum counts.
Proof.
  unfold sub_table. intros E. apply bind_ret in E as (lo & _ & E). apply bind_ret in E as (hi & _ & E).
  destruct (hi =? lo + 1); [discriminate|]. apply bind_ret in E as (sl & E1 & E). apply bind_ret in E as (k & _ & E). apply bind_ret in E as (sub' & E2 & E).
  injection E as <-. transitivity (tsum sl).
  - unfold vremove in E2. destruct (k <? length sl); [|discriminate]. apply ret_inj in E2. subst sub'. unfold tsum. rewrite map_app, sum_app.
    assert (Esl : sum (map snd sl) = sum (map snd (firstn k sl)) + sum (map snd (skipn k sl))) by (rewrite <- sum_app, <- map_app, firstn_skipn; reflexivity).
    rewrite Esl. apply Nat.add_le_mono_l.
    assert (Hsk : skipn (S k) sl = skipn 1 (skipn k sl)) by (rewrite skipn_skipn; reflexivity). rewrite Hsk, <- skipn_map. apply sum_skipn.
  - unfold slice in E1. destruct ((lo <=? hi) && (hi <=? length counts)); [|discriminate]. injection E1 as <-.
    unfold tsum. rewrite <- firstn_map, <- skipn_map. etransitivity; [apply sum_firstn|apply sum_skipn].
Qed.

Lemma ext_encoding_w n_ext fuel : forall counts r, tsum counts < M -> optimize_ext_encoding fuel counts n_ext = Ret r ->
  w_optimize_ext_encoding bd M fuel counts n_ext = Ret r.
Proof.
  induction fuel as [|fuel IH]; intros counts r HM; cbn [optimize_ext_encoding w_optimize_ext_encoding]; destruct (length counts <=? n_ext); auto.
  intros E. apply bind_ret in E as (splits & E1 & E). rewrite (optimize_splits_w _ _ _ HM E1). cbn [bind].
  revert E. apply mfold_same. intros encs (i, sp) encs' _ E. apply bind_ret in E as (sub & E2 & E). rewrite E2. cbn [bind].
  destruct sub as [sub|]; [|exact E]. apply bind_ret in E as (se & E3 & E). pose proof (sub_table_sum _ _ _ _ _ E2) as Hs.
  rewrite (IH sub se) by (try exact E3; lia). exact E.
Qed.

Lemma bytes_tokenset_w counts n_char n_ext p r : tsum counts < M -> optimize_bytes_tokenset counts n_char n_ext p = Ret r ->
  w_optimize_bytes_tokenset bd M counts n_char n_ext p = Ret r.
Proof.
  intros HM E. unfold optimize_bytes_tokenset in E. unfold w_optimize_bytes_tokenset. apply bind_ret in E as (ts0 & E0 & E). rewrite E0. cbn [bind].
  apply bind_ret in E as (splits & E1 & E). rewrite (optimize_splits_w _ _ _ HM E1). cbn [bind].
  revert E. apply mfold_same. intros ts (i, sp) ts' _ E. apply bind_ret in E as ((t1, id) & E2 & E). rewrite E2. cbn [bind].
  apply bind_ret in E as (sub & E3 & E). rewrite E3. cbn [bind].
  destruct sub as [sub|]; [|exact E]. apply bind_ret in E as (se & E4 & E). pose proof (sub_table_sum _ _ _ _ _ E3) as Hs.
  rewrite (ext_encoding_w n_ext _ sub se) by (try exact E4; lia). exact E.
Qed.

(** ** Counts and totals *)
Lemma huff_counts_w s r : (forall c, In c (token_counts s) -> c + 1 < M) -> (forall c, In c (seq_counts s) -> c + 1 < M) ->
  huff_counts s = Ret r -> w_huff_counts bd M s = Ret r.
Proof.
  intros H1 H2 E. unfold huff_counts in E. unfold w_huff_counts. apply bind_ret in E as (c1 & E1 & E).
  match goal with |- bind ?X _ = _ => assert (G : X = Ret c1) end.
  { revert E1. apply mfold_same. intros t (tok, c) t' Hi E1. cbn [fst snd] in *. destruct tok as [[|b [|]]|]; auto.
    rewrite uadd_small by (apply H1; eapply in_combine_r; exact Hi). exact E1. }
  rewrite G. cbn [bind]. revert E. apply mfold_same. intros t (q, c) t' Hi E. cbn [fst snd] in *.
  apply bind_ret in E as (u & Eu & E). rewrite Eu. cbn [bind]. apply bind_ret in E as (b & Eb & E). rewrite Eb. cbn [bind].
  rewrite uadd_small by (apply H2; eapply in_combine_r; exact Hi). exact E.
Qed.

Lemma huff_total_w counts ts r : r < M -> huff_total counts ts = Ret r -> w_huff_total bd M counts ts = Ret r.
Proof.
  intros Hr E. unfold huff_total in E. unfold w_huff_total. apply bind_ret in E as (t1 & E1 & E).
  match type of E with mfold ?f _ _ = _ => match goal with |- (_ <- _ ;; mfold ?g ?l _) = _ => assert (S : t1 <= r /\ (r < M -> mfold g l t1 = Ret r)); [apply (mfold_grow M f g l); [|exact E]|destruct S as (L & G)] end end.
  - intros b q b' Eb. apply bind_ret in Eb as (u & Eu & Eb). apply bind_ret in Eb as (x & Ex & Eb). apply bind_ret in Eb as (c & Ec & Eb). injection Eb as <-.
    split; [lia|]. intros Hb. rewrite Eu. cbn [bind]. rewrite Ex. cbn [bind]. rewrite Ec. cbn [bind]. rewrite umul_small by lia. cbn [bind]. apply uadd_small. exact Hb.
  - match type of E1 with mfold ?f _ _ = _ => match goal with |- (_ <- mfold ?g ?l _ ;; _) = _ => assert (S : 0 <= t1 /\ (t1 < M -> mfold g l 0 = Ret t1)); [apply (mfold_grow M f g l); [|exact E1]|destruct S as (L1 & G1)] end end.
    + intros b tok b' Eb. destruct tok as [x|]; [|injection Eb as <-; auto]. apply bind_ret in Eb as (u & Eu & Eb). apply bind_ret in Eb as (y & Ey & Eb). apply bind_ret in Eb as (c & Ec & Eb). injection Eb as <-.
      split; [lia|]. intros Hb. rewrite Eu. cbn [bind]. rewrite Ey. cbn [bind]. rewrite Ec. cbn [bind]. apply uadd_small. exact Hb.
    + rewrite G1 by lia. cbn [bind]. apply G. exact Hr.
Qed.

Lemma count_tokens_w ts s r : r < M -> count_tokens_in_bytes ts s = Ret r -> w_count_tokens_in_bytes bd M ts s = Ret r.
Proof.
  intros Hr E. unfold count_tokens_in_bytes in E. unfold w_count_tokens_in_bytes. apply bind_ret in E as (bc & E0 & E). rewrite E0. cbn [bind].
  apply bind_ret in E as (t1 & E1 & E).
  match type of E with mfold ?f _ _ = _ => match goal with |- (_ <- _ ;; mfold ?g ?l _) = _ => assert (S : t1 <= r /\ (r < M -> mfold g l t1 = Ret r)); [apply (mfold_grow M f g l); [|exact E]|destruct S as (L & G)] end end.
  - intros b (i, q) b' Eb. cbn [fst snd] in *. destruct (seq_string q) as [|y [|]]; try (injection Eb as <-; auto; fail).
    apply bind_ret in Eb as (o & Eo & Eb). apply bind_ret in Eb as (c & Ec & Eb). apply bind_ret in Eb as (k & Ek & Eb). injection Eb as <-.
    split; [lia|]. intros Hb. rewrite Eo. cbn [bind]. rewrite Ec. cbn [bind]. rewrite Ek. cbn [bind]. rewrite umul_small by lia. cbn [bind]. apply uadd_small. exact Hb.
  - match type of E1 with mfold ?f _ _ = _ => match goal with |- (_ <- mfold ?g ?l _ ;; _) = _ => assert (S : 0 <= t1 /\ (t1 < M -> mfold g l 0 = Ret t1)); [apply (mfold_grow M f g l); [|exact E1]|destruct S as (L1 & G1)] end end.
    + intros b (i, tok) b' Eb. cbn [fst snd] in *. destruct tok as [[|y [|]]|]; try (injection Eb as <-; auto; fail).
      apply bind_ret in Eb as (o & Eo & Eb). apply bind_ret in Eb as (c & Ec & Eb). apply bind_ret in Eb as (k & Ek & Eb). injection Eb as <-.
      split; [lia|]. intros Hb. rewrite Eo. cbn [bind]. rewrite Ec. cbn [bind]. rewrite Ek. cbn [bind]. rewrite umul_small by lia. cbn [bind]. apply uadd_small. exact Hb.
    + rewrite G1 by lia. cbn [bind]. apply G. exact Hr.
Qed.
End Machine.
