(** * Property C86: the stopping test of src/main.rs:181-183 in binary64.

    [(a - b).abs() / b < 0.005] where [a] and [b] are the [bytes_per_token] of the sample
    and of the full data (src/stats2.rs:49-51: one counter divided by another), in IEEE
    double precision, round to nearest even, modelled with Flocq's rounding operator on
    real numbers.  Conversions of counters below 2^53 are exact. *)
From Coq Require Import Reals Lra Lia ZArith.
From Flocq Require Import Core Relative Plus_error.
From Verif Require Import Base BaseLemmas TokenSetModel TokenizerModel TokSpec TokenizerTheory TokenSetProof2 StatsAlgebra BatchModel
  SamplerModel PropSampler SampleFloat CacheModel PropTokenizer PropBatch OptBytesModel OptimizeModel OptimizeProof2 OptimizeProof6
  OptimizeProof3 OptimizeProof7 PropCache PropOptimize PropDeterminism PropFixpoint MainModel PropMain PropCommands.

Open Scope R_scope.

Local Instance prec53 : Prec_gt_0 53.
Proof. reflexivity. Qed.

(** src/stats2.rs:49-51 *)
Definition f64_bytes_per_token (s : stats) : R := fl (RN (scanned_bytes s) / RN (total_tokens s)).

(** src/main.rs:182-183.  With no tokens on either side or no bytes on the right
    the left-hand side is an infinity or NaN, which is below nothing: [0/0] is NaN,
    [inf - b] is [inf], [(a - inf)/inf] is NaN, and a division by a zero [b] gives [inf] or
    NaN. *)
Definition f64_near (s f : stats) : bool :=
  if Nat.eqb (total_tokens s) 0 || Nat.eqb (total_tokens f) 0 || Nat.eqb (scanned_bytes f) 0 then false
  else
    let a := f64_bytes_per_token s in
    let b := f64_bytes_per_token f in
    if Rlt_dec (fl (Rabs (fl (a - b)) / b)) (fl (5 / 1000)) then true else false.

(** The exact number of bytes per token. *)
Definition bytes_per_token (s : stats) : R := RN (scanned_bytes s) / RN (total_tokens s).
(** The exact relative difference of two of them. *)
Definition relative_difference (s f : stats) : R :=
  Rabs (bytes_per_token s - bytes_per_token f) / bytes_per_token f.

Lemma fl_abs x : Rabs (fl x - x) <= / 9007199254740992 * Rabs x + / 9007199254740992 * / 1048576.
Proof.
  destruct (error_N_FLT radix2 (-1074) 53 eq_refl (fun x => negb (Z.even x)) x) as (eps & eta & He & Ht & _ & E).
  unfold fl. rewrite E. replace (x * (1 + eps) + eta - x) with (x * eps + eta) by ring.
  eapply Rle_trans; [apply Rabs_triang|]. apply Rplus_le_compat.
  - rewrite Rabs_mult, Rmult_comm. apply Rmult_le_compat_r; [apply Rabs_pos|].
    replace (/ 9007199254740992) with (/ 2 * bpow radix2 (-53 + 1)) by (cbn; lra). exact He.
  - eapply Rle_trans; [exact Ht|].
    apply Rle_trans with (1 * bpow radix2 (-73)); [|cbn; lra].
    apply Rmult_le_compat; [lra|apply bpow_ge_0|lra|apply bpow_le; lia].
Qed.

Lemma fl_minus a b : Rabs (fl (fl a - fl b) - (fl a - fl b)) <= / 9007199254740992 * Rabs (fl a - fl b).
Proof.
  assert (F : forall x, generic_format radix2 (FLT_exp (-1074) 53) (fl x)) by (intros x; apply generic_format_round; typeclasses eauto).
  destruct (FLT_plus_error_N_ex radix2 (-1074) 53 (fun x => negb (Z.even x)) (fl a) (- fl b) (F a)
    (generic_format_opp _ _ _ (F b))) as (eps & He & E).
  change (fl a + - fl b) with (fl a - fl b) in E. 
  unfold fl at 1. rewrite E. replace ((fl a - fl b) * (1 + eps) - (fl a - fl b)) with (eps * (fl a - fl b)) by ring.
  rewrite Rabs_mult. apply Rmult_le_compat_r; [apply Rabs_pos|]. eapply Rle_trans; [exact He|].
  assert (U : u_ro radix2 53 = / 9007199254740992) by (unfold u_ro; cbn; lra). rewrite U.
  apply (Rmult_le_reg_r (1 + / 9007199254740992)); [lra|].
  unfold Rdiv. rewrite Rmult_assoc, Rinv_l by lra. lra.
Qed.

Local Notation u := (/ 9007199254740992).

(** The error analysis on real numbers: [A] and [B] are the exact quotients. *)
Lemma near_error A B : 0 <= A -> bpow radix2 (-1022) <= B -> A = 0 \/ bpow radix2 (-1022) <= A ->
  let q := Rabs (fl (fl A - fl B)) / fl B in
  (fl q < fl (5 / 1000) -> Rabs (A - B) < (5 / 1000 + 8 * u) * B) /\
  (Rabs (A - B) <= (5 / 1000 - 8 * u) * B -> fl q < fl (5 / 1000)).
Proof.
  intros HA HB HA'. cbv zeta.
  assert (PB : 0 < B) by (eapply Rlt_le_trans; [apply bpow_gt_0|exact HB]).
  pose proof (fl_rel A ltac:(rewrite (Rabs_pos_eq A HA); exact HA')) as FA.
  pose proof (fl_rel B ltac:(rewrite (Rabs_pos_eq B ltac:(lra)); right; exact HB)) as FB.
  rewrite (Rabs_pos_eq A HA) in FA. rewrite (Rabs_pos_eq B) in FB by lra.
  pose proof (fl_minus A B) as FD.
  set (a := fl A) in *. set (b := fl B) in *. set (d := fl (a - b)) in *. clearbody d.
  pose proof (fl_abs (Rabs d / b)) as FQ.
  pose proof (fl_abs (5 / 1000)) as FC. rewrite (Rabs_pos_eq (5 / 1000)) in FC by lra.
  set (q' := fl (Rabs d / b)) in *. set (c := fl (5 / 1000)) in *. clearbody q' c a b. clear HA' HB.
  assert (Pb : 0 < b) by (apply Rabs_le_inv in FB; lra).
  set (q := Rabs d / b) in *.
  assert (Eq : Rabs d = q * b) by (unfold q; field; lra).
  assert (Pq : 0 <= q) by (unfold q; apply Rmult_le_pos; [apply Rabs_pos|left; apply Rinv_0_lt_compat; exact Pb]).
  rewrite (Rabs_pos_eq q Pq) in FQ. clearbody q.
  apply Rabs_le_inv in FA, FB, FQ, FC.
  assert (D1 : Rabs (a - b) * (1 - u) <= Rabs d).
  { pose proof (Rabs_triang_inv (a - b) (a - b - d)) as T. replace (a - b - (a - b - d)) with d in T by ring.
    rewrite (Rabs_minus_sym (a - b) d) in T. lra. }
  assert (D2 : Rabs d <= Rabs (a - b) * (1 + u)).
  { pose proof (Rabs_triang (a - b) (d - (a - b))) as T. replace (a - b + (d - (a - b))) with d in T by ring. lra. }
  set (D := Rabs (A - B)) in *. set (E := Rabs (a - b)) in *.
  assert (PD : 0 <= D) by apply Rabs_pos. assert (PE : 0 <= E) by apply Rabs_pos.
  assert (HAD : A <= B + D).
  { unfold D. pose proof (Rle_abs (A - B)). lra. }
  assert (E1 : D <= E + u * A + u * B).
  { unfold D, E. replace (A - B) with ((a - b) + ((A - a) + (b - B))) by ring.
    eapply Rle_trans; [apply Rabs_triang|]. rewrite Rplus_assoc. apply Rplus_le_compat_l.
    eapply Rle_trans; [apply Rabs_triang|]. apply Rplus_le_compat; apply Rabs_le; lra. }
  assert (E2 : E <= D + u * A + u * B).
  { unfold D, E. replace (a - b) with ((A - B) + ((a - A) + (B - b))) by ring.
    eapply Rle_trans; [apply Rabs_triang|]. rewrite Rplus_assoc. apply Rplus_le_compat_l.
    eapply Rle_trans; [apply Rabs_triang|]. apply Rplus_le_compat; apply Rabs_le; lra. }
  clearbody D E. clear FD.
  split; intros H.
  - assert (Hq : q < 5 / 1000 + 3 * u) by lra.
    assert (Hd : Rabs d <= (5 / 1000 + 3 * u) * (B * (1 + u))).
    { rewrite Eq. apply Rmult_le_compat; lra. }
    assert (HE : E * (1 - u) <= (5 / 1000 + 3 * u) * (1 + u) * B) by lra.
    lra.
  - assert (HE : E <= (5 / 1000 - 5 * u) * B) by lra.
    assert (Hd : Rabs d <= (5 / 1000 - 5 * u) * (1 + u) * B) by lra.
    assert (Hq : q * (1 - u) <= (5 / 1000 - 5 * u) * (1 + u)).
    { apply (Rmult_le_reg_r B); [exact PB|].
      assert (q * (B * (1 - u)) <= q * b) by (apply Rmult_le_compat_l; lra). lra. }
    lra.
Qed.

(** The test in terms of exact quotients, for counters below 2^53. *)
Lemma f64_near_spec s f : (0 < total_tokens s)%nat -> (0 < total_tokens f)%nat -> (0 < scanned_bytes f)%nat ->
  (Z.of_nat (total_tokens s) < 2 ^ 53)%Z -> (Z.of_nat (total_tokens f) < 2 ^ 53)%Z ->
  (f64_near s f = true -> relative_difference s f < 5 / 1000 + / 1125899906842624) /\
  (relative_difference s f <= 5 / 1000 - / 1125899906842624 -> f64_near s f = true).
Proof.
  intros Hs Hf Hb Ls Lf. unfold relative_difference, f64_near, f64_bytes_per_token.
  rewrite (proj2 (Nat.eqb_neq (total_tokens s) 0)) by lia. rewrite (proj2 (Nat.eqb_neq (total_tokens f) 0)) by lia.
  rewrite (proj2 (Nat.eqb_neq (scanned_bytes f) 0)) by lia. cbn [orb]. cbv zeta. fold (bytes_per_token s) (bytes_per_token f).
  assert (P : forall x, (0 < total_tokens x)%nat -> 0 <= bytes_per_token x).
  { intros x Hx. apply Rmult_le_pos; [apply RN_nonneg|left; apply Rinv_0_lt_compat, RN_pos; exact Hx]. }
  pose proof (P s Hs) as Ps. pose proof (P f Hf) as Pf.
  pose proof (quot_range (scanned_bytes s) (total_tokens s) Hs Ls) as Rs. pose proof (quot_range (scanned_bytes f) (total_tokens f) Hf Lf) as Rf.
  fold (bytes_per_token s) in Rs. fold (bytes_per_token f) in Rf. rewrite (Rabs_pos_eq _ Ps) in Rs. rewrite (Rabs_pos_eq _ Pf) in Rf.
  assert (Pb : 0 < bytes_per_token f).
  { apply Rmult_lt_0_compat; [apply RN_pos; exact Hb|apply Rinv_0_lt_compat, RN_pos; exact Hf]. }
  destruct Rf as [Rf|Rf]; [lra|].
  destruct (near_error (bytes_per_token s) (bytes_per_token f) Ps Rf Rs) as (N1 & N2).
  replace (8 * / 9007199254740992) with (/ 1125899906842624) in * by lra.
  set (A := bytes_per_token s) in *. set (B := bytes_per_token f) in *. clearbody A B. clear Rs Rf P.
  assert (E : Rabs (A - B) = Rabs (A - B) / B * B) by (field; lra).
  split.
  - intros H. destruct (Rlt_dec _ _) as [Hlt|]; [|discriminate]. apply N1 in Hlt.
    apply (Rmult_lt_reg_r B); [exact Pb|]. rewrite <- E. exact Hlt.
  - intros H. destruct (Rlt_dec _ _) as [|Hge]; [reflexivity|]. exfalso. apply Hge, N2.
    rewrite E. apply Rmult_le_compat_r; lra.
Qed.

Open Scope nat_scope.

(** ** The counters of the statistics that are compared *)
Lemma bytes_need_tokens ts samples k : seqs_nonempty ts -> min_total ts samples k -> 0 < length (concat samples) -> 0 < k.
Proof.
  intros Hn (ns & F & ->). induction F as [|x k samples ns (ps & ((Hseg & _) & ->)) F IH]; [cbn; lia|].
  cbn [concat]. rewrite app_length. unfold sum in *. cbn [fold_right].
  assert (G : 0 < length x -> 0 < length (stream ts ps)); [|lia].
  clear F IH. destruct Hseg as [|q ps s r Hq Hseg]; [cbn; lia|]. intros _.
  unfold stream. cbn [flat_map]. rewrite app_length. destruct q as [i|i]; cbn; [lia|].
  cbn in Hq. destruct (nth_error (sequences ts) i) as [q|] eqn:Eq; [|discriminate].
  apply nth_error_In in Eq. pose proof (Hn q Eq). destruct (seq_tokens q); [congruence|cbn; lia].
Qed.

(** The result of a search counts the bytes it read. *)
Lemma returned_scanned threads total samples init order clock n p t pre rounds m s :
  1 <= threads -> shuffles order -> supported t n -> good_start n p t pre -> round_bound samples n <= rounds ->
  optimizing threads total samples init order clock n p t pre rounds m -> returned m s ->
  scanned_bytes s = length (concat samples).
Proof.
  intros Ht Ho Hs Hp Hr M R.
  destruct (returned_outcome _ _ _ _ _ _ _ _ _ _ _ _ _ Ht Ho Hs Hp Hr M R) as (E1 & _).
  destruct (run_parts _ _ _ _ _ _ _ _ _ _ Ho Hs Hp Hr E1) as (sp & ts1 & ts2 & _ & F1 & _ & Es & Ea).
  destruct (visited_sort _ _ _ _ _ (proj1 F1) Es) as (V2 & _).
  unfold answer in Ea. apply bind_ret in Ea as (ts3 & E3 & Ea). apply bind_ret in Ea as (s3 & E4 & Ea). apply ret_inj in Ea.
  cbn [requested] in E3. destruct (visited_sort _ _ _ _ _ V2 E3) as (V3 & _).
  destruct (proj2 (C01_tokenizer_exists_iff_usable ts3) (vi_usable _ _ _ _ V3)) as (tk3 & Htk3).
  rewrite (sync_eq ts3 tk3 Htk3 (visited_range _ _ _ _ V3)) in E4. apply ret_inj in E4.
  destruct (tally_facts ts3 tk3 init samples Htk3 (visited_range _ _ _ _ V3)) as (_ & _ & T3 & _). rewrite E4 in T3.
  rewrite <- Ea. exact T3.
Qed.

Local Notation run threads rounds n p t init order clock below reads file :=
  (isteps threads rounds n p t init order clock f64_near below reads file) (only parsing).

Lemma full_data reads file full : (forall pos, read_ok file (N.to_nat large) pos (reads pos)) ->
  full_samples reads file = Ret full -> concat full = file /\ ~ In [] full.
Proof.
  intros Hr E. unfold full_samples in E. destruct (C28_file_read_exactly_once reads file (N.to_nat large) (S (length file))) as [Hp|(l & El & Ec & Hne)].
  - unfold large; lia.
  - exact Hr.
  - lia.
  - congruence.
  - rewrite E in El. apply ret_inj in El. subst l. auto.
Qed.

(** What is compared: the statistics of one round. *)
Lemma round_counters threads rounds n p t init order clock below reads file pre size total samples m s full f :
  usable_setup threads rounds n p t order reads file pre -> (forall pos, read_ok file (N.to_nat large) pos (reads pos)) ->
  sampler below file size = Ret (total, samples) ->
  optimizing threads total samples init order (clock size) n p t pre rounds m -> returned m s ->
  full_samples reads file = Ret full -> par_result (st_token_set s) threads (full_size file) full init f ->
  scanned_bytes s = length (concat samples) /\ min_total (st_token_set s) samples (total_tokens s) /\
  (scanned_bytes s <> 0 -> total_tokens s <> 0) /\ total_tokens s <= 774 * length file /\
  scanned_bytes f = length file /\ min_total (st_token_set s) full (total_tokens f) /\
  (length file <> 0 -> total_tokens f <> 0) /\ total_tokens f <= 774 * length file.
Proof.
  intros [H1 H2 H3 H4 H5 _] Hr Es M R Ef Pf.
  destruct (sampler_total below file size) as (total' & samples' & Es' & Hne & Hl). rewrite Es in Es'. injection Es' as <- <-.
  pose proof (bound_ok threads rounds n file H1 H4 samples Hl) as Hb.
  pose proof (returned_scanned _ _ _ _ _ _ _ _ _ _ _ _ _ H1 H2 H3 H5 Hb M R) as Sc.
  destruct (C44_result_within_budget _ _ _ _ _ _ _ _ _ _ _ _ H1 Hne H2 H3 H5 Hb M) as (_ & K).
  destruct (K s R) as (_ & (sp & V & _) & MT).
  destruct (full_data reads file full Hr Ef) as (Ec & Hne').
  destruct (par_facts _ _ _ _ _ _ (visited_range _ _ _ _ V) H1 Pf) as (_ & _ & _ & _ & Sf & MF).
  rewrite Ec in Sf.
  pose proof (visited_total_bound _ _ _ _ _ _ V (proj2 (total_for_min _ _ _) MT)) as B1.
  pose proof (visited_total_bound _ _ _ _ _ _ V (proj2 (total_for_min _ _ _) MF)) as B2. rewrite Ec in B2.
  split; [exact Sc|]. split; [exact MT|].
  split; [intros H; pose proof (bytes_need_tokens _ _ _ (visited_nonempty _ _ _ _ V) MT); lia|].
  split; [lia|]. split; [exact Sf|]. split; [exact MF|].
  split; [intros H; pose proof (bytes_need_tokens _ _ _ (visited_nonempty _ _ _ _ V) MF); rewrite Ec in *; lia|lia].
Qed.

(** ** C86 *)

(** A round on more than 2^24 bytes compares the bytes per token on the sample with those on the
    whole file, both for the best encoding.  It ends the run with the statistics of the
    whole file if they differ by at most 0.5% - 2^-50, and starts the next round,
    from the set just found and with twice the data, if they differ by at least
    0.5% + 2^-50. *)
Theorem C86_stops_when_close : forall threads rounds n p t init order clock below reads file min pre
    size cur total samples m s full f y,
  usable_setup threads rounds n p t order reads file pre ->
  (forall pos, read_ok file (N.to_nat large) pos (reads pos)) -> (Z.of_nat (774 * length file) < 2 ^ 53)%Z ->
  isteps threads rounds n p t init order clock f64_near below reads file (IRun min pre) (IRun size cur) ->
  (16777216 < size < full_size file)%N ->
  sampler below file size = Ret (total, samples) ->
  optimizing threads total samples init order (clock size) n p t cur rounds m -> returned m s ->
  full_samples reads file = Ret full -> par_result (st_token_set s) threads (full_size file) full init f ->
  istep threads rounds n p t init order clock f64_near below reads file (IRun size cur) y ->
  scanned_bytes s = length (concat samples) /\ min_total (st_token_set s) samples (total_tokens s) /\
  scanned_bytes f = length file /\ min_total (st_token_set s) full (total_tokens f) /\ concat full = file /\
  ((relative_difference s f <= 5 / 1000 - / 1125899906842624)%R -> y = IReturned f) /\
  ((5 / 1000 + / 1125899906842624 <= relative_difference s f)%R -> y = IRun (size * 2) (Some (st_token_set s))).
Proof.
  intros threads rounds n p t init order clock below reads file min pre size cur total samples m s full f y
    Hu Hr Hlen Hreach Hsize Es M R Ef Pf Hy.
  destruct Hu as [H1 H2 H3 H4 H5 (full' & H6 & H7)]. rewrite Ef in H6. apply ret_inj in H6. subst full'.
  pose proof (reach_good threads rounds n p t init order clock f64_near below reads file H1 H2 H3 H4 min pre _ H5 Hreach) as (Hc & _).
  assert (Hu : usable_setup threads rounds n p t order reads file cur) by (split; try assumption; exists full; auto).
  destruct (round_counters _ _ _ _ _ _ _ _ _ _ _ _ _ _ _ _ _ _ _ Hu Hr Es M R Ef Pf) as (S1 & T1 & Z1 & B1 & S2 & T2 & Z2 & B2).
  assert (Hl : length file <> 0) by (unfold full_size in Hsize; lia).
  split; [exact S1|]. split; [exact T1|]. split; [exact S2|]. split; [exact T2|]. split; [apply (full_data reads file full Hr Ef)|].
  (* the round is determined *)
  assert (Ey : y = if f64_near s f then IReturned f else IRun (size * 2) (Some (st_token_set s))).
  { destruct (sampler_total below file size) as (total' & samples' & Es' & Hne & Hlc). rewrite Es in Es'. injection Es' as <- <-.
    pose proof (bound_ok threads rounds n file H1 H4 samples Hlc) as Hb.
    pose proof (returned_outcome _ _ _ _ _ _ _ _ _ _ _ _ _ H1 H2 H3 Hc Hb M R) as (O1 & _).
    destruct (C44_result_within_budget _ _ _ _ _ _ _ _ _ _ _ _ H1 Hne H2 H3 Hc Hb M) as (_ & K).
    destruct (K s R) as (_ & (sp & V & _) & _).
    inversion Hy as [size0 pre0 Hs|size0 ts Hs Hp|size0 pre0 total0 samples0 m0 Hs Es0 Hst Em|size0 pre0 total0 samples0 m0 s0 Hs Es0 Hst Em Ef0|size0 pre0 total0 samples0 m0 s0 full0 f0 Hs Es0 Hst Em Ef0 Pf0]; subst.
    - lia.
    - exfalso. destruct (start_usable n p t ts Hc) as (tk & E). congruence.
    - exfalso. eapply (proj1 (round_good threads rounds n p t init order clock below file H1 H2 H3 H4 size cur total0 samples0 m0 s Hc Es0 Hst)). exact Em.
    - congruence.
    - assert (E2 : (total0, samples0) = (total, samples)) by congruence. injection E2 as -> ->.
      pose proof (returned_outcome _ _ _ _ _ _ _ _ _ _ _ _ _ H1 H2 H3 Hc Hb Hst Em) as (O2 & _).
      assert (s0 = s) by congruence. subst s0.
      assert (full0 = full) by congruence. subst full0.
      pose proof (C11_result_is_unique _ _ _ _ _ _ (visited_range _ _ _ _ V) H1 Pf) as F1.
      pose proof (C11_result_is_unique _ _ _ _ _ _ (visited_range _ _ _ _ V) H1 Pf0) as F2.
      assert (f0 = f) by congruence. subst f0.
      rewrite (proj2 (N.ltb_lt large size)) by (unfold large; lia). reflexivity. }
  subst y. destruct (Nat.eq_dec (total_tokens s) 0) as [E0|E0].
  - assert (Hn : f64_near s f = false) by (unfold f64_near; rewrite E0; reflexivity). rewrite Hn.
    split; [|reflexivity]. intros H. exfalso.
    assert (Eb : scanned_bytes s = 0) by lia. unfold relative_difference in H. unfold bytes_per_token at 1 in H. rewrite Eb in H.
    assert (P : (0 < bytes_per_token f)%R).
    { apply Rmult_lt_0_compat; [apply RN_pos; lia|apply Rinv_0_lt_compat, RN_pos; lia]. }
    change (RN 0) with 0%R in H. unfold Rdiv at 2 in H. rewrite Rmult_0_l, Rminus_0_l, Rabs_Ropp, (Rabs_pos_eq _ (Rlt_le _ _ P)) in H.
    unfold Rdiv at 1 in H. rewrite Rinv_r in H by (apply Rgt_not_eq; exact P). lra.
  - destruct (f64_near_spec s f) as (N1 & N2); [lia..|].
    split; intros H.
    + rewrite (N2 H). reflexivity.
    + destruct (f64_near s f); [|reflexivity]. exfalso. specialize (N1 eq_refl). lra.
Qed.

(** So a result is never further from the sample it was found with than 0.5% + 2^-50: it is the
    statistics, on the whole file, of a set found on a sample of more than 2^24
    bytes which that set encodes equally well. *)
Theorem C86_result_generalizes : forall threads rounds n p t init order clock below reads file min pre f,
  usable_setup threads rounds n p t order reads file pre ->
  (forall pos, read_ok file (N.to_nat large) pos (reads pos)) -> (Z.of_nat (774 * length file) < 2 ^ 53)%Z ->
  isteps threads rounds n p t init order clock f64_near below reads file (IRun min pre) (IReturned f) ->
  exists size total samples cur m s,
    (16777216 < size < full_size file)%N /\ sampler below file size = Ret (total, samples) /\
    optimizing threads total samples init order (clock size) n p t cur rounds m /\ returned m s /\
    scanned_bytes s = length (concat samples) /\ min_total (st_token_set s) samples (total_tokens s) /\
    st_token_set f = st_token_set s /\ scanned_bytes f = length file /\ 0 < total_tokens f /\
    (relative_difference s f < 5 / 1000 + / 1125899906842624)%R.
Proof.
  intros threads rounds n p t init order clock below reads file min pre f Hu Hr Hlen Hreach.
  inversion Hreach as [|x y z Hxy Hy]; subst. destruct y as [size cur| |]; [|inversion Hy..].
  pose proof Hu as [H1 H2 H3 H4 H5 (full' & H6 & H7)].
  pose proof (reach_good threads rounds n p t init order clock f64_near below reads file H1 H2 H3 H4 min pre _ H5 Hxy) as (Hc & _).
  remember (IReturned f) as y eqn:Ey. remember (IRun size cur) as x eqn:Ex.
  destruct Hy as [| | | |size1 cur1 total samples m s full f0 Hs Es Hst Em Ef Pf]; try discriminate. injection Ex as -> ->.
  destruct ((large <? size)%N && f64_near s f0) eqn:Eb; [|discriminate]. injection Ey as ->.
  apply andb_true_iff in Eb as (Eb & En). apply N.ltb_lt in Eb. 
  assert (Hu' : usable_setup threads rounds n p t order reads file cur) by (split; try assumption; eauto).
  destruct (round_counters _ _ _ _ _ _ _ _ _ _ _ _ _ _ _ _ _ _ _ Hu' Hr Es Hst Em Ef Pf) as (S1 & T1 & Z1 & B1 & S2 & T2 & Z2 & B2).
  assert (Hl : length file <> 0) by (unfold full_size in Hs; lia).
  exists size, total, samples, cur, m, s. split; [unfold large in Eb; lia|]. split; [exact Es|]. split; [exact Hst|]. split; [exact Em|].
  split; [exact S1|]. split; [exact T1|].
  destruct (sampler_total below file size) as (total' & samples' & Es' & Hne & Hlc). rewrite Es in Es'. injection Es' as <- <-.
  destruct (C44_result_within_budget _ _ _ _ _ _ _ _ _ _ _ _ H1 Hne H2 H3 Hc (bound_ok threads rounds n file H1 H4 samples Hlc) Hst) as (_ & K).
  destruct (K s Em) as (_ & (sp & V & _) & _).
  destruct (par_facts _ _ _ _ _ _ (visited_range _ _ _ _ V) H1 Pf) as (_ & _ & Et & _).
  split; [exact Et|]. split; [exact S2|]. split; [lia|].
  apply f64_near_spec; try exact En; try lia.
  unfold f64_near in En. destruct (total_tokens s); [discriminate|lia].
Qed.

(** ** Runs exist: with 256 byte tokens both sides use one token per byte, so the
    first round on more than 2^24 bytes is the last. *)
Lemma byte_tokens_only p sp ts : visited Bytes p sp ts -> ntokens ts <= lo Bytes ->
  forall ps x, segments ts ps x -> length (stream ts ps) = length x.
Proof.
  intros V Hn ps x H.
  assert (L : n_long_tokens ts = 0).
  { pose proof (base_range _ _ _ _ V) as (B & _). pose proof (base_ntokens ts). lia. }
  assert (Ne : forall i s, nth_error (tokens ts) i = Some (Str s) -> length s = 1).
  { intros i s E. apply nth_error_In in E. 
    assert (Hf : ~ In (Str s) (filter is_long (tokens ts))).
    { unfold n_long_tokens in L. destruct (filter is_long (tokens ts)); [auto|discriminate]. }
    rewrite filter_In in Hf.
    destruct (vi_usable _ _ _ _ V) as (_ & U1 & _).
    assert (s <> []) by (intros ->; apply U1; unfold strings; apply in_app_iff; left; apply in_flat_map; exists (Str []); split; [exact E|left; reflexivity]).
    destruct s as [|a [|b s]]; [congruence|reflexivity|]. exfalso. apply Hf. split; [exact E|reflexivity]. }
  induction H as [|q ps s r Hq H IH]; [reflexivity|].
  unfold stream in *. cbn [flat_map]. rewrite !app_length, IH. f_equal.
  destruct q as [i|i]; cbn in *.
  - destruct (nth_error (tokens ts) i) as [[s'|]|] eqn:E; try discriminate. injection Hq as ->. symmetry. eapply Ne; exact E.
  - exfalso. destruct (nth_error (sequences ts) i) as [q|] eqn:E; [|discriminate]. apply nth_error_In in E.
    destruct (vi_seqs _ _ _ _ V (denotes ts q) (in_map _ _ _ E)) as (_ & []).
Qed.

Lemma byte_tokens_total p sp ts samples k : visited Bytes p sp ts -> ntokens ts <= lo Bytes -> min_total ts samples k -> k = length (concat samples).
Proof.
  intros V Hn (ns & F & ->). induction F as [|x k samples ns (ps & ((Hseg & _) & ->)) F IH]; [reflexivity|].
  cbn [concat]. rewrite app_length. unfold sum in *. cbn [fold_right]. rewrite (byte_tokens_only p sp ts V Hn ps x Hseg). lia.
Qed.

Lemma takes_all (file : bstr) : subsample (fun _ _ => true) file = Ret file.
Proof.
  destruct (subsample_spec (fun _ _ => true) file) as (ps & H & E). rewrite E. f_equal.
  rewrite <- (ip_concat _ _ H). f_equal. generalize 0 at 1 2. intros k. clear. revert k.
  assert (G : forall k j, select (choices (fun _ _ => true) k j ps) ps = ps); [|intros k; apply G].
  induction ps as [|x ps IH]; intros k j; cbn; [reflexivity|]. f_equal. apply IH.
Qed.

Example C86_hypotheses_met : forall file, Forall (fun b => b2n b < 128) file ->
  (16777217 < full_size file)%N -> (Z.of_nat (774 * length file) < 2 ^ 53)%Z ->
  exists reads rounds f,
    usable_setup 4 rounds 256 Raw Bytes (fun _ l => l) reads file None /\
    (forall pos, read_ok file (N.to_nat large) pos (reads pos)) /\
    isteps 4 rounds 256 Raw Bytes None (fun _ l => l) (fun _ _ => false) f64_near (fun _ _ _ => true) reads file
      (IRun 16777217 None) (IReturned f).
Proof.
  intros file Ha Hsize Hlen. set (reads := fun pos => Nat.min (N.to_nat large) (length file - pos)).
  set (rounds := let b := 258 * (3 * length file) in S (256 * S b + b)).
  assert (Hr : forall pos, read_ok file (N.to_nat large) pos (reads pos)) by (intros pos; split; [apply le_n|auto]).
  assert (Hu : usable_setup 4 rounds 256 Raw Bytes (fun _ l => l) reads file None).
  { split; [lia|intros m l; reflexivity|split; [apply Nat.leb_le; reflexivity|exact I]|apply le_n|exact I|].
    destruct (C28_ascii_file reads file (N.to_nat large) (S (length file)) Ha) as (l & E & _ & H).
    - unfold large. lia.
    - exact Hr.
    - lia.
    - exists l. split; [exact E|exact H]. }
  clearbody rounds. exists reads, rounds. clearbody reads.
  pose proof Hu as [H1 H2 H3 H4 H5 (full & H6 & H7)].
  destruct (next_exists 4 rounds 256 Raw Bytes None (fun _ l => l) (fun _ _ => false) f64_near (fun _ _ _ => true) reads file H1 H2 H3 H4 16777217%N None full H5 H6 H7) as (x & Hx).
  pose proof (next_good 4 rounds 256 Raw Bytes None (fun _ l => l) (fun _ _ => false) f64_near (fun _ _ _ => true) reads file H1 H2 H3 H4 16777217%N None x H5 Hx) as G.
  inversion Hx as [size0 pre0 Hs|size0 ts Hs Hp|size0 pre0 total samples m Hs Es Hst Em|size0 pre0 total samples m s Hs Es Hst Em Ef|size0 pre0 total samples m s full0 f Hs Es Hst Em Ef Pf].
  - exfalso. lia.
  - subst x. exfalso. destruct G as [G|G]; [lia|congruence].
  - exfalso. rewrite H6 in Ef. discriminate.
  - clear G. assert (full0 = full) by congruence. subst full0.
    assert (Hread : (16777216 < 16777217 < full_size file)%N) by (split; [reflexivity|exact Hsize]).
    destruct (sampler_total (fun _ _ _ => true) file 16777217%N) as (total' & samples' & Es' & Hne & Hlc). rewrite Es in Es'. injection Es' as <- <-.
    destruct (C44_result_within_budget _ _ _ _ _ _ _ _ _ _ _ _ H1 Hne H2 H3 H5 (bound_ok 4 rounds 256 file H1 H4 samples Hlc) Hst) as (_ & K).
    destruct (K s Em) as (_ & (sp & V & Hn) & _).
    destruct (C86_stops_when_close _ _ _ _ _ _ _ _ _ _ _ _ _ _ _ _ _ _ _ _ _ _ Hu Hr Hlen
      (iss_refl _ _ _ _ _ _ _ _ _ _ _ _ _) Hread Es Hst Em Ef Pf Hx) as (S1 & T1 & S2 & T2 & Ec & C & _).
    exists f. split; [exact Hu|]. split; [exact Hr|]. econstructor; [constructor|].
    match type of Hx with istep _ _ _ _ _ _ _ _ _ _ _ _ _ ?y => assert (Ex : y = IReturned f) end; [|rewrite <- Ex; exact Hx].
    apply C. clear C.
    pose proof (byte_tokens_total _ _ _ _ _ V Hn T1) as N1. pose proof (byte_tokens_total _ _ _ _ _ V Hn T2) as N2. rewrite Ec in N2.
    assert (Cs : concat samples = file).
    { unfold sampler in Es. rewrite takes_all in Es. cbn [bind] in Es.
      destruct (C27_single_chunk_or_ascii file (N.to_nat mega) (S (length file)) ltac:(unfold mega; lia) (Nat.lt_succ_diag_r _) (or_intror Ha)) as (l & El & Cl).
      rewrite El in Es. cbn [bind] in Es. injection Es as _ <-. exact Cl. }
    rewrite Cs in *. assert (Pl : 0 < length file) by (unfold full_size in Hsize; lia).
    assert (One : forall q, scanned_bytes q = length file -> total_tokens q = length file -> bytes_per_token q = 1%R).
    { intros q Eq1 Eq2. unfold bytes_per_token. rewrite Eq1, Eq2. apply Rinv_r, Rgt_not_eq, RN_pos. exact Pl. }
    unfold relative_difference. rewrite (One s S1 N1), (One f S2 N2).
    replace (1 - 1)%R with 0%R by ring. rewrite Rabs_R0. lra.
Qed.
