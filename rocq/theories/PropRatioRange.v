(** * Property C122: the range of the bytes per token that are reported. *)
From Coq Require Import Reals Lra ZArith.
From Flocq Require Import Core Relative.
From Verif Require Import Base BaseLemmas TokenSetModel TokenizerModel TokSpec SortLemmas TokenizerProof1 TokenizerProof2
  TokenizerTheory TokenSetProof TokenSetProof2 PropTokenizer PropTokenSet StatsAlgebra BatchModel PropBatch
  PropJson Shaped CacheModel PropCache OptBytesModel OptBytesProof OptBytesProof2
  OptBytesProof3 OptBytesProof4 PropOptBytes OptimizeModel OptimizeProof1 OptimizeProof2 OptimizeProof3 OptimizeProof4
  OptimizeProof5 OptimizeProof6 OptimizeProof7 OptimizeProof8 PropOptimize PropDeterminism PropFixpoint PropCommands
  SampleFloat PropRatio StopFloat PropProgressLog PropLocal.

Lemma segment_reach ts L K ps text : bounds ts L K -> segments ts ps text -> length text <= L * length (stream ts ps).
Proof.
  intros B. induction 1 as [|p ps s r Hp Hs IH]; [cbn; lia|].
  change (stream ts (p :: ps)) with (piece_tokens ts p ++ stream ts ps). rewrite !app_length.
  pose proof (piece_tokens_pos ts p _ (bd_seqs _ _ _ B) Hp).
  assert (length s <= L) by (apply (bd_long _ _ _ B), in_strings; eauto). nia.
Qed.

Lemma total_range ts L K samples N : bounds ts L K -> min_total ts samples N ->
  N <= K * length (concat samples) /\ length (concat samples) <= L * N.
Proof.
  intros B (ns & H & ->). induction H as [|x n samples ns Hn H IH]; [cbn; lia|].
  cbn [concat]. rewrite app_length. unfold sum in *. cbn [fold_right].
  pose proof (min_spelled ts L K B x n Hn) as H1. destruct Hn as (ps & (Hs & _) & ->).
  pose proof (segment_reach ts L K ps x B Hs). nia.
Qed.

Local Open Scope R_scope.

Lemma ratio_range s N L K : (0 < N)%nat -> (N <= K * s)%nat -> (s <= L * N)%nat ->
  (N.of_nat s < 2 ^ 53)%N -> (N.of_nat N < 2 ^ 53)%N -> (N.of_nat L < 2 ^ 53)%N ->
  fl (/ RN K) <= f64_ratio s N <= RN L.
Proof.
  intros HN H1 H2 Bs BN BL. unfold f64_ratio. rewrite !fl_small_int by assumption.
  assert (PN : 0 < RN N) by (apply RN_pos; exact HN).
  assert (PK : 0 < RN K) by (apply RN_pos; destruct K; lia).
  apply RN_le' in H1, H2. 
  assert (EK : RN (K * s) = RN K * RN s) by (unfold RN; rewrite Nat2Z.inj_mul, mult_IZR; reflexivity).
  assert (EL : RN (L * N) = RN L * RN N) by (unfold RN; rewrite Nat2Z.inj_mul, mult_IZR; reflexivity).
  rewrite EK in H1. rewrite EL in H2. split.
  - apply fl_le. apply (Rmult_le_reg_r (RN K * RN N)); [apply Rmult_lt_0_compat; assumption|].
    replace (/ RN K * (RN K * RN N)) with (RN N) by (field; lra).
    replace (RN s / RN N * (RN K * RN N)) with (RN K * RN s) by (field; lra). exact H1.
  - rewrite <- (fl_small_int L BL) at 1. unfold f64. apply fl_le.
    apply (Rmult_le_reg_r (RN N)); [exact PN|].
    replace (RN s / RN N * RN N) with (RN s) by (field; lra). exact H2.
Qed.

Local Instance prec53 : Prec_gt_0 53.
Proof. reflexivity. Qed.

(** The least number for sets with fallback sequences is a power of two, not rounded. *)
Lemma fl_power k : (k <= 3)%nat -> fl (/ RN (2 ^ k)) = / RN (2 ^ k).
Proof.
  intros Hk. unfold fl. apply round_generic; [typeclasses eauto|].
  replace (/ RN (2 ^ k)) with (bpow radix2 (- Z.of_nat k)).
  - apply generic_format_bpow'; [typeclasses eauto|]. unfold FLT_exp. lia.
  - do 4 (destruct k as [|k]; [unfold RN; cbn; lra|]). lia.
Qed.

Lemma least_ratio t : t <> BytesHuff -> fl (/ RN (dearest_byte t)) = / RN (dearest_byte t).
Proof.
  intros Ht. destruct t; cbn [dearest_byte]; try congruence;
    [exact (fl_power 3 ltac:(lia))|exact (fl_power 2 ltac:(lia))|exact (fl_power 1 ltac:(lia))|exact (fl_power 0 ltac:(lia))].
Qed.

Lemma visited_range_ratio t p sp ts samples N longest : visited t p sp ts ->
  (0 < length (concat samples))%nat -> (N.of_nat (774 * length (concat samples)) < 2 ^ 53)%N ->
  (forall x, In x (strings ts) -> length x <= longest)%nat -> min_total ts samples N ->
  fl (/ RN (dearest_byte t)) <= f64_ratio (length (concat samples)) N <= RN longest.
Proof.
  intros V H0 H1 HL M. pose proof (visited_bounds _ _ _ _ _ V HL) as B.
  destruct (total_range _ _ _ _ _ B M) as (R1 & R2).
  pose proof (bytes_need_tokens _ _ _ (visited_nonempty _ _ _ _ V) M H0) as P.
  assert (D : (dearest_byte t <= 774)%nat) by (destruct t; cbn; lia).
  assert (G : (N.of_nat N < 2 ^ 53)%N) by (apply N.le_lt_trans with (2 := H1); nia).
  destruct (N.lt_ge_cases (N.of_nat longest) (2 ^ 53)%N) as [Hl|Hl]; [apply ratio_range; try assumption; lia|].
  destruct (ratio_range (length (concat samples)) N (length (concat samples)) (dearest_byte t)) as (A & C); try assumption; try lia; [nia|].
  split; [exact A|]. apply Rle_trans with (1 := C). apply RN_le'. lia.
Qed.

(** ** Theorems *)
(** What an optimization reports at its end, for its data: between one byte per
    [dearest_byte] tokens and the longest string of the result. *)
Theorem C122_reported_range : forall threads total samples init order clock n p t pre rounds m s longest,
  (1 <= threads)%nat -> ~ In [] samples -> shuffles order -> supported t n -> good_start n p t pre ->
  (round_bound samples n <= rounds)%nat -> (0 < length (concat samples))%nat ->
  (N.of_nat (774 * length (concat samples)) < 2 ^ 53)%N ->
  optimizing threads total samples init order clock n p t pre rounds m -> returned m s ->
  (forall x, In x (strings (st_token_set s)) -> length x <= longest)%nat ->
  fl (/ RN (dearest_byte t)) <= f64_ratio (scanned_bytes s) (total_tokens s) <= RN longest.
Proof.
  intros threads total samples init order clock n p t pre rounds m s longest Ht Hne Ho Hs Hp Hr H0 H1 Hm E HL.
  destruct (C44_result_within_budget threads total samples init order clock n p t pre rounds m Ht Hne Ho Hs Hp Hr Hm) as (_ & Gr).
  destruct (Gr s E) as (_ & (sp & V & _) & M).
  rewrite (returned_scanned _ _ _ _ _ _ _ _ _ _ _ _ _ Ht Ho Hs Hp Hr Hm E).
  eapply visited_range_ratio; eassumption.
Qed.

(** So is every number it prints on the way. *)
Theorem C122_logged_range : forall threads total samples init order clock n p t pre rounds ts0 m ts x longest,
  (1 <= threads)%nat -> ~ In [] samples -> shuffles order -> supported t n -> good_start n p t pre ->
  (round_bound samples n <= rounds)%nat -> initial samples init n p t pre ts0 -> (0 < length (concat samples))%nat ->
  (N.of_nat (774 * length (concat samples)) < 2 ^ 53)%N ->
  optimizing threads total samples init order clock n p t pre rounds m ->
  In ts (ts0 :: m_saved m) -> (forall x, In x (strings ts) -> length x <= longest)%nat ->
  logged samples init ts x ->
  fl (/ RN (dearest_byte t)) <= x <= RN longest.
Proof.
  intros threads total samples init order clock n p t pre rounds ts0 m ts x longest Ht Hne Ho Hs Hp Hr Hi H0 H1 Hm Hin HL Hx.
  destruct (C44_result_within_budget threads total samples init order clock n p t pre rounds m Ht Hne Ho Hs Hp Hr Hm) as (G & _).
  assert (V : exists sp, visited t p sp ts).
  { destruct Hin as [<-|Hin]; [eapply initial_visited; eauto|]. destruct (G ts Hin) as (_ & sp & V & _). eauto. }
  destruct V as (sp & V). destruct (logged_is _ _ _ _ _ _ _ V Hx) as (N & M & ->).
  eapply visited_range_ratio; eassumption.
Qed.

(** For the types with a token for every digit of a byte, or for every byte, the least number is
    exactly 1/8, 1/4, 1/2 or 1. *)
Theorem C122_least_number : forall t k,
  (t, k) = (Bits1, 8%nat) \/ (t, k) = (Bits2, 4%nat) \/ (t, k) = (Bits4, 2%nat) \/ (t, k) = (Bytes, 1%nat) ->
  fl (/ RN (dearest_byte t)) = / INR k.
Proof.
  intros t k H. rewrite least_ratio by (destruct H as [H|[H|[H|H]]]; injection H as -> ->; discriminate).
  destruct H as [H|[H|[H|H]]]; injection H as -> ->; unfold RN; rewrite INR_IZR_INZ; reflexivity.
Qed.

Theorem C122_hypotheses_met :
  let samples := [[x61; x62]; [x61; x62; x61; x62]] in
  shuffles (fun _ l => l) /\ ~ In [] samples /\ supported Bits1 4 /\ good_start 4 Raw Bits1 None /\
  initial samples None 4 Raw Bits1 None (new_bits1 Raw true) /\ (0 < length (concat samples))%nat /\
  (N.of_nat (774 * length (concat samples)) < 2 ^ 53)%N /\
  exists m s x longest, optimizing 2 6 samples None (fun _ l => l) (fun _ => true) 4 Raw Bits1 None (round_bound samples 4) m /\
    returned m s /\ (forall y, In y (strings (st_token_set s)) -> length y <= longest)%nat /\
    logged samples None (new_bits1 Raw true) x /\ / 8 <= x <= f64_ratio (scanned_bytes s) (total_tokens s) /\
    f64_ratio (scanned_bytes s) (total_tokens s) <= RN longest.
Proof.
  pose proof C118_hypotheses_met as H. cbv zeta in *. destruct H as (H1 & H2 & H3 & H4 & H5 & H6 & H7 & m & s & Hm & R).
  assert (B : (N.of_nat (774 * length (concat [[x61; x62]; [x61; x62; x61; x62]])) < 2 ^ 53)%N) by reflexivity.
  do 7 (split; [assumption|]).
  revert H5. generalize (new_bits1 Raw true). intros t0 H5.
  destruct (C118_reported_ratio_never_falls 2 6 _ None _ _ 4 Raw Bits1 None _ t0 m ltac:(lia) H2 H1 H3 H4 (le_n _) H5 ltac:(left; discriminate) H6 Hm) as (L & _ & Up).
  destruct (L t0 (or_introl eq_refl)) as (x & Hx).
  assert (X : forall l : list bstr, exists k, forall y, In y l -> (length y <= k)%nat).
  { induction l as [|z l (k & Hk)]; [exists 0%nat; intros y []|]. exists (length z + k)%nat.
    intros y [<-|Hy]; [lia|]. specialize (Hk y Hy). lia. }
  destruct (X (strings (st_token_set s))) as (longest & HL). destruct (X (strings t0)) as (longest0 & HL0).
  exists m, s, x, longest. split; [exact Hm|]. split; [exact R|]. split; [exact HL|]. split; [exact Hx|].
  destruct (C122_reported_range 2 6 _ None _ _ 4 Raw Bits1 None _ m s longest ltac:(lia) H2 H1 H3 H4 (le_n _) H6 B Hm R HL) as (_ & U).
  destruct (C122_logged_range 2 6 _ None _ _ 4 Raw Bits1 None _ t0 m t0 x longest0 ltac:(lia) H2 H1 H3 H4 (le_n _) H5 H6 B Hm (or_introl eq_refl) HL0 Hx) as (Lo & _).
  rewrite (C122_least_number Bits1 8) in Lo by (left; reflexivity).
  split; [split; [|exact (Up s R t0 x (or_introl eq_refl) Hx)]|exact U].
  replace (/ 8) with (/ INR 8) by (rewrite INR_IZR_INZ; reflexivity). exact Lo.
Qed.
