(** * Property C108: the number of bytes per token that is written into a file.

    src/stats2.rs:61-64: [(s as f64 / self.total_tokens as f64).into()], in IEEE double
    precision, round to nearest even, modelled with Flocq's rounding operator on real
    numbers; both conversions are rounded too. *)
From Coq Require Import Reals Lra Lia ZArith String.
From Flocq Require Import Core Relative.
From Verif Require Import Base BaseLemmas TokenSetModel TokenizerModel JsonModel JsonText PropFiles CommandsModel PropCommands SampleFloat.

Local Open Scope list_scope.
Local Open Scope R_scope.

(** [n as f64] *)
Definition f64 (n : nat) : R := fl (RN n).
(** src/stats2.rs:63: [s as f64 / total as f64], for [total > 0] *)
Definition f64_ratio (s total : nat) : R := fl (f64 s / f64 total).

Local Instance prec53 : Prec_gt_0 53.
Proof. reflexivity. Qed.

Lemma fl_le x y : x <= y -> fl x <= fl y.
Proof. intros H. apply round_le; [typeclasses eauto|typeclasses eauto|exact H]. Qed.

Lemma fl_small_int n : (N.of_nat n < 2 ^ 53)%N -> f64 n = RN n.
Proof.
  intros H. unfold f64, fl. apply round_generic; [typeclasses eauto|].
  apply generic_format_FLT. exists (Float radix2 (Z.of_nat n) 0).
  - unfold F2R. cbn. unfold RN. ring.
  - cbn. rewrite Z.abs_eq by lia. change (2 ^ 53)%N with 9007199254740992%N in H. cbn. lia.
  - cbn. lia.
Qed.

Lemma f64_pos n : (0 < n)%nat -> 1 <= f64 n.
Proof.
  intros H. assert (E : f64 1 = 1) by (rewrite fl_small_int; [reflexivity|cbn; lia]).
  rewrite <- E. apply fl_le. apply RN_le'. lia.
Qed.

Lemma f64_nonneg n : 0 <= f64 n.
Proof.
  assert (E : f64 0 = 0) by (rewrite fl_small_int; [reflexivity|cbn; lia]).
  rewrite <- E. apply fl_le. apply RN_le'. lia.
Qed.

(** For all sizes below 2^64: with fewer tokens the number is never smaller. *)
Theorem C108_ratio_monotone : forall s total total', (0 < total <= total')%nat ->
  f64_ratio s total' <= f64_ratio s total.
Proof.
  intros s t t' (H0 & H). apply fl_le.
  pose proof (f64_pos t H0). pose proof (fl_le _ _ (RN_le' t t' H)) as L. fold (f64 t) in L. fold (f64 t') in L.
  apply Rmult_le_compat_l; [apply f64_nonneg|]. apply Rinv_le_contravar; lra.
Qed.

Local Notation u := (/ 9007199254740992).

(** It is the quotient, up to one part in 2^53. *)
Theorem C108_ratio_accuracy : forall s total, (N.of_nat s < 2 ^ 53)%N -> (0 < N.of_nat total < 2 ^ 53)%N ->
  Rabs (f64_ratio s total - RN s / RN total) <= / 9007199254740992 * (RN s / RN total).
Proof.
  intros s t Hs (H0 & Ht). unfold f64_ratio. rewrite !fl_small_int by assumption.
  assert (P : 0 < RN t) by (apply RN_pos; lia).
  assert (Q : 0 <= RN s / RN t) by (apply Rmult_le_pos; [apply RN_nonneg|left; apply Rinv_0_lt_compat; exact P]).
  rewrite <- (Rabs_pos_eq (RN s / RN t) Q) at 3. apply fl_rel.
  destruct (Nat.eq_dec s 0) as [->|Hne].
  - left. change (RN 0) with 0. unfold Rdiv. apply Rmult_0_l.
  - right. rewrite Rabs_pos_eq by exact Q.
    apply Rle_trans with (bpow radix2 (-53)); [apply bpow_le; lia|].
    assert (S1 : 1 <= RN s) by (change 1 with (RN 1); apply RN_le'; lia).
    assert (T1 : RN t <= 9007199254740992).
    { unfold RN. apply IZR_le. change (2 ^ 53)%N with 9007199254740992%N in Ht. lia. }
    apply Rle_trans with (1 * / RN t).
    + rewrite Rmult_1_l. replace (bpow radix2 (-53)) with u by (cbn; lra). apply Rinv_le_contravar; assumption.
    + apply Rmult_le_compat_r; [left; apply Rinv_0_lt_compat; exact P|exact S1].
Qed.

(** For the same data, the number is larger exactly if the tokens are fewer. *)
Theorem C108_ratio_orders : forall s t1 t2, (0 < N.of_nat s < 2 ^ 53)%N ->
  (0 < N.of_nat t1 < 2 ^ 52)%N -> (0 < N.of_nat t2 < 2 ^ 52)%N ->
  (f64_ratio s t2 < f64_ratio s t1 <-> (t1 < t2)%nat).
Proof.
  intros s t1 t2 (S0 & Hs) (A0 & HA) (B0 & HB). split.
  - intros H. destruct (Nat.lt_ge_cases t1 t2) as [L|L]; [exact L|]. exfalso.
    pose proof (C108_ratio_monotone s t2 t1 ltac:(lia)). lra.
  - intros L.
    assert (W : (2 ^ 52 < 2 ^ 53)%N) by reflexivity.
    pose proof (C108_ratio_accuracy s t1 Hs ltac:(lia)) as E1. pose proof (C108_ratio_accuracy s t2 Hs ltac:(lia)) as E2.
    assert (P1 : 0 < RN t1) by (apply RN_pos; lia). assert (P2 : 0 < RN t2) by (apply RN_pos; lia).
    assert (Ps : 0 < RN s) by (apply RN_pos; lia).
    apply Rabs_le_inv in E1, E2.
    set (q1 := RN s / RN t1) in *. set (q2 := RN s / RN t2) in *.
    assert (D : 1 <= RN t2 - RN t1).
    { unfold RN. rewrite <- minus_IZR. apply IZR_le. lia. }
    assert (T : RN t1 + RN t2 < 9007199254740992).
    { unfold RN. rewrite <- plus_IZR. apply IZR_lt. change (2 ^ 52)%N with 4503599627370496%N in *. lia. }
    assert (K : q2 * (1 + u) < q1 * (1 - u)).
    { apply (Rmult_lt_reg_r (RN t1 * RN t2)); [apply Rmult_lt_0_compat; assumption|].
      unfold q1, q2.
      replace (RN s / RN t2 * (1 + u) * (RN t1 * RN t2)) with (RN s * (RN t1 * (1 + u))) by (field; lra).
      replace (RN s / RN t1 * (1 - u) * (RN t1 * RN t2)) with (RN s * (RN t2 * (1 - u))) by (field; lra).
      apply Rmult_lt_compat_l; [exact Ps|].
      assert (u * (RN t1 + RN t2) < 1).
      { apply (Rmult_lt_reg_l 9007199254740992); [lra|]. rewrite <- Rmult_assoc, Rinv_r by lra. lra. }
      lra. }
    lra.
Qed.

(** ** In the files *)
Section Files.
(** The text of a number, and the number that a text stands for. *)
Context (print : R -> bstr) (value : bstr -> R).
Definition printed : nat -> nat -> bstr := fun s total => print (f64_ratio s total).
(** The promise of the printing library: the same number is read back. *)
Definition reads_back (x : R) : Prop := value (print x) = x.

(** What is in the file of a statistics that was taken for data of [raw] bytes: the total
    and the number; [null] if there are no tokens. *)
Lemma ratio_in_file s text raw : writable printed s -> stats_text printed s = Ret text -> initial_size s = Some raw ->
  exists v, parse_json text = Some v /\
    jindex (jindex v (lit "stats")) (lit "total_tokens") = JNum (total_tokens s) /\
    jindex (jindex v (lit "stats")) (lit "bytes_per_token") =
      (if total_tokens s =? 0 then JNull else JReal (printed raw (total_tokens s))).
Proof.
  intros W H Hi. destruct (stats_in_file printed s text raw W H Hi) as (v & Hv & E).
  exists v. split; [exact Hv|]. rewrite E. split; reflexivity.
Qed.

(** Two files about the same data: reading the number of bytes per token from
    both tells which set needs fewer tokens, and how many. *)
Theorem C108_files_compare : forall s1 s2 text1 text2 raw,
  writable printed s1 -> writable printed s2 ->
  stats_text printed s1 = Ret text1 -> stats_text printed s2 = Ret text2 ->
  initial_size s1 = Some raw -> initial_size s2 = Some raw ->
  (0 < N.of_nat raw < 2 ^ 53)%N ->
  (0 < N.of_nat (total_tokens s1) < 2 ^ 52)%N -> (0 < N.of_nat (total_tokens s2) < 2 ^ 52)%N ->
  reads_back (f64_ratio raw (total_tokens s1)) -> reads_back (f64_ratio raw (total_tokens s2)) ->
  exists v1 v2 r1 r2,
    parse_json text1 = Some v1 /\ parse_json text2 = Some v2 /\
    jindex (jindex v1 (lit "stats")) (lit "bytes_per_token") = JReal r1 /\
    jindex (jindex v2 (lit "stats")) (lit "bytes_per_token") = JReal r2 /\
    (value r2 < value r1 <-> (total_tokens s1 < total_tokens s2)%nat) /\
    (value r1 = value r2 <-> total_tokens s1 = total_tokens s2) /\
    Rabs (value r1 - RN raw / RN (total_tokens s1)) <= / 9007199254740992 * (RN raw / RN (total_tokens s1)).
Proof.
  intros s1 s2 text1 text2 raw W1 W2 T1 T2 I1 I2 Hraw H1 H2 V1 V2.
  destruct (ratio_in_file s1 text1 raw W1 T1 I1) as (v1 & P1 & _ & R1).
  destruct (ratio_in_file s2 text2 raw W2 T2 I2) as (v2 & P2 & _ & R2).
  rewrite (proj2 (Nat.eqb_neq _ _)) in R1 by lia. rewrite (proj2 (Nat.eqb_neq _ _)) in R2 by lia.
  exists v1, v2, (printed raw (total_tokens s1)), (printed raw (total_tokens s2)).
  unfold printed. unfold reads_back in V1, V2. rewrite V1, V2.
  pose proof (C108_ratio_orders raw _ _ Hraw H1 H2) as O12. pose proof (C108_ratio_orders raw _ _ Hraw H2 H1) as O21.
  repeat split; try assumption.
  - apply O12.
  - apply O12.
  - intros E. destruct (Nat.lt_trichotomy (total_tokens s1) (total_tokens s2)) as [L|[L|L]]; [|exact L|].
    + apply O12 in L. lra.
    + apply O21 in L. lra.
  - intros ->. reflexivity.
  - assert (W : (2 ^ 52 < 2 ^ 53)%N) by reflexivity. apply C108_ratio_accuracy; lia.
Qed.

(** Without tokens, as for empty data, there is no number. *)
Theorem C108_no_tokens : forall s text raw, writable printed s -> stats_text printed s = Ret text -> initial_size s = Some raw ->
  exists v, parse_json text = Some v /\
   (jindex (jindex v (lit "stats")) (lit "bytes_per_token") = JNull <-> total_tokens s = 0%nat).
Proof.
  intros s text raw W T I. destruct (ratio_in_file s text raw W T I) as (v & P & _ & R1).
  exists v. split; [exact P|]. rewrite R1. destruct (Nat.eqb_spec (total_tokens s) 0) as [E|E]; split; intros; congruence.
Qed.
End Files.


(** The hypotheses are met, for example for data of four bytes that take one
    token in one file and two in the other. *)
Example C108_example : exists print value, (forall x, number_text (print x)) /\
  reads_back print value (f64_ratio 4 1) /\ reads_back print value (f64_ratio 4 2) /\
  writable (printed print) (stats_new (mkTS 0 Bytes Raw false [] []) (Some 4%nat)) /\
  f64_ratio 4 2 < f64_ratio 4 1.
Proof.
  assert (O : f64_ratio 4 2 < f64_ratio 4 1).
  { apply C108_ratio_orders; cbn; lia. }
  exists (fun x => if Req_EM_T x (f64_ratio 4 1) then lit "4.0" else lit "2.0").
  exists (fun t => if bstr_eqb t (lit "4.0") then f64_ratio 4 1 else f64_ratio 4 2).
  assert (N0 : forall x, number_text (if Req_EM_T x (f64_ratio 4 1) then lit "4.0" else lit "2.0")).
  { intros x. destruct (Req_EM_T x (f64_ratio 4 1)); vm_compute; reflexivity. }
  split; [exact N0|]. split; [|split; [|split; [|exact O]]].
  - unfold reads_back. destruct (Req_EM_T (f64_ratio 4 1) (f64_ratio 4 1)) as [_|H]; [reflexivity|congruence].
  - unfold reads_back. destruct (Req_EM_T (f64_ratio 4 2) (f64_ratio 4 1)) as [H|_]; [lra|reflexivity].
  - constructor; cbn -[N.pow]; try (cbn; lia).
    + intros a b. apply N0.
    + intros k E. injection E as <-. cbn. lia.
Qed.
