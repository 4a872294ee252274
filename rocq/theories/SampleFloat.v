(** * The floating point comparison of src/input/memory_sampler.rs:24,38,51.

    [x as f64 / y as f64 < size as f64 / file_size as f64] with IEEE double
    precision, round to nearest even, modelled with Flocq's rounding operator
    on real numbers.  The conversions of the integers are exact below 2^53;
    0/0 is NaN, and NaN is below nothing; [read] is 0 only when nothing was
    taken.  A quotient of integers below 2^53 neither overflows nor underflows. *)
From Coq Require Import Reals Lra Lia ZArith.
From Flocq Require Import Core Relative.
From Verif Require Import Base SamplerModel PropSampler.

Open Scope R_scope.

Local Instance prec53 : Prec_gt_0 53.
Proof. reflexivity. Qed.

(** Rounding a real to the nearest double. *)
Definition fl (x : R) : R := round radix2 (FLT_exp (-1074) 53) ZnearestE x.
Definition RN (n : nat) : R := IZR (Z.of_nat n).

(** src/input/memory_sampler.rs:24,38 and 51 *)
Definition f64_below (size file_size taken nread : nat) : bool :=
  if Nat.eqb nread 0 then false
  else if Rlt_dec (fl (RN taken / RN nread)) (fl (RN size / RN file_size)) then true else false.

Lemma RN_pos n : (0 < n)%nat -> 0 < RN n.
Proof. intros H. apply IZR_lt. lia. Qed.
Lemma RN_nonneg n : 0 <= RN n.
Proof. apply IZR_le. lia. Qed.
Lemma RN_mul a b : RN (a * b) = RN a * RN b.
Proof. unfold RN. rewrite Nat2Z.inj_mul. apply mult_IZR. Qed.
Lemma RN_add a b : RN (a + b) = RN a + RN b.
Proof. unfold RN. rewrite Nat2Z.inj_add. apply plus_IZR. Qed.
Lemma RN_lt a b : RN a < RN b -> (a < b)%nat.
Proof. intros H. apply lt_IZR in H. lia. Qed.
Lemma RN_le a b : RN a <= RN b -> (a <= b)%nat.
Proof. intros H. apply le_IZR in H. lia. Qed.
Lemma RN_le' a b : (a <= b)%nat -> RN a <= RN b.
Proof. intros H. apply IZR_le. lia. Qed.

(** Rounding is monotone, so the comparison is never true without reason. *)
Theorem f64_never_over size len : (0 < len)%nat -> never_over (f64_below size len) size len.
Proof.
  intros Hl taken nread H. unfold f64_below in H.
  destruct (Nat.eqb_spec nread 0) as [|Hr]; [discriminate|].
  destruct (Rlt_dec _ _) as [Hlt|]; [|discriminate]. clear H.
  apply RN_lt. rewrite !RN_mul.
  pose proof (RN_pos len Hl) as Pl. pose proof (RN_pos nread) as Pr.
  assert (Pr' : 0 < RN nread) by (apply Pr; lia). clear Pr.
  destruct (Rlt_or_le (RN taken / RN nread) (RN size / RN len)) as [H|H].
  - apply (Rmult_lt_compat_r (RN nread * RN len)) in H; [|apply Rmult_lt_0_compat; assumption].
    unfold Rdiv in H.
    replace (RN taken * / RN nread * (RN nread * RN len)) with (RN taken * RN len) in H by (field; lra).
    replace (RN size * / RN len * (RN nread * RN len)) with (RN size * RN nread) in H by (field; lra).
    exact H.
  - exfalso. apply (Rlt_not_le _ _ Hlt). unfold fl. apply round_le; [| |exact H]; typeclasses eauto.
Qed.

Lemma fl_rel x : x = 0 \/ bpow radix2 (-1022) <= Rabs x ->
  Rabs (fl x - x) <= / 9007199254740992 * Rabs x.
Proof.
  intros [->|H].
  - unfold fl. rewrite round_0 by typeclasses eauto. rewrite Rminus_0_r, Rabs_R0. lra.
  - pose proof (relative_error_N_FLT radix2 (-1074) 53 eq_refl (fun x => negb (Z.even x)) x H) as X.
    unfold fl. replace (/ 9007199254740992) with (/ 2 * bpow radix2 (-53 + 1)); [exact X|].
    cbn. lra.
Qed.

Lemma quot_range a b : (0 < b)%nat -> (Z.of_nat b < 2 ^ 53)%Z ->
  RN a / RN b = 0 \/ bpow radix2 (-1022) <= Rabs (RN a / RN b).
Proof.
  intros Hb Hlt. destruct a as [|a]; [left; unfold RN, Rdiv; cbn; ring|right].
  assert (Pb : 0 < RN b) by (apply RN_pos; exact Hb).
  rewrite Rabs_pos_eq; [|apply Rmult_le_pos; [apply RN_nonneg|left; apply Rinv_0_lt_compat; exact Pb]].
  apply Rle_trans with (bpow radix2 (-53)); [apply bpow_le; lia|].
  apply (Rmult_le_reg_r (RN b)); [exact Pb|]. unfold Rdiv. rewrite Rmult_assoc, Rinv_l, Rmult_1_r by lra.
  apply Rle_trans with 1.
  - assert (RN b <= bpow radix2 53).
    { unfold RN. replace (bpow radix2 53) with (IZR (2 ^ 53)) by (cbn; reflexivity). apply IZR_le. lia. }
    apply Rle_trans with (bpow radix2 (-53) * bpow radix2 53).
    + apply Rmult_le_compat_l; [apply bpow_ge_0|assumption].
    + rewrite <- bpow_plus. cbn. lra.
  - apply IZR_le. lia.
Qed.

(** ... and false only when the share is (almost) reached. *)
Theorem f64_never_far_under size len : (0 < len)%nat ->
  (Z.of_nat size <= 2 ^ 52)%Z -> (Z.of_nat len < 2 ^ 53)%Z ->
  never_far_under (f64_below size len) size len.
Proof.
  intros Hl Hs Hlen taken nread Hr H. unfold f64_below in H.
  destruct (Nat.eqb_spec nread 0) as [->|Hr0]; [lia|].
  destruct (Rlt_dec _ _) as [|Hge]; [discriminate|]. clear H. apply Rnot_lt_le in Hge.
  apply RN_le. rewrite !RN_mul, RN_add.
  pose proof (RN_pos len Hl) as Pl. assert (Pr : 0 < RN nread) by (apply RN_pos; lia).
  pose proof (RN_le' _ _ Hr) as Hrl. pose proof (RN_nonneg taken) as Pt. pose proof (RN_nonneg size) as Ps.
  set (x := RN taken / RN nread) in *. set (y := RN size / RN len) in *.
  assert (Ex : RN taken = x * RN nread) by (unfold x; field; lra).
  assert (Ey : RN size = y * RN len) by (unfold y; field; lra).
  assert (Hx0 : 0 <= x) by (unfold x; apply Rmult_le_pos; [exact Pt|left; apply Rinv_0_lt_compat; exact Pr]).
  assert (Hy0 : 0 <= y) by (unfold y; apply Rmult_le_pos; [exact Ps|left; apply Rinv_0_lt_compat; exact Pl]).
  pose proof (fl_rel x (quot_range taken nread ltac:(lia) ltac:(lia))) as Fx.
  pose proof (fl_rel y (quot_range size len Hl Hlen)) as Fy.
  rewrite (Rabs_pos_eq x) in Fx by exact Hx0. rewrite (Rabs_pos_eq y) in Fy by exact Hy0.
  apply Rabs_le_inv in Fx, Fy.
  assert (Hs52 : RN size <= 4503599627370496) by (unfold RN; apply IZR_le; lia).
  change (RN 1) with 1.
  (* y (1 - u) <= x (1 + u) *)
  destruct (Rle_or_lt y x) as [Hyx|Hxy].
  - rewrite Ey, Ex. 
    assert (y * RN len * RN nread <= x * RN nread * RN len).
    { replace (x * RN nread * RN len) with (x * RN len * RN nread) by ring.
      apply Rmult_le_compat_r; [lra|]. apply Rmult_le_compat_r; lra. }
    nra.
  - assert (Hd : y - x <= / 4503599627370496 * y) by lra.
    assert (H1 : (y - x) * RN len <= 1).
    { apply Rle_trans with (/ 4503599627370496 * y * RN len); [apply Rmult_le_compat_r; lra|].
      rewrite Rmult_assoc, <- Ey. lra. }
    replace (RN size * RN nread) with (x * RN nread * RN len + (y - x) * RN len * RN nread) by (rewrite Ey; ring).
    rewrite Ex. assert ((y - x) * RN len * RN nread <= 1 * RN nread) by (apply Rmult_le_compat_r; lra).
    lra.
Qed.

Open Scope nat_scope.

(** C31 with the program's own comparison: the subsampled data consists of whole
    paragraphs, is less than one paragraph longer than requested, and less than
    one paragraph and two bytes shorter. *)
Theorem C31_sample_from_file : forall size file,
  file <> [] -> size <= length file ->
  (Z.of_nat (length file) <= 2 ^ 52)%Z ->
  exists ps data, is_paragraphs file ps /\
    subsample (f64_below size (length file)) file = Ret data /\
    (exists sel, length sel = length ps /\ data = concat (select sel ps)) /\
    (forall M, (forall p, In p ps -> length p <= M) ->
       length data < size + M /\ size <= length data + 1 + M).
Proof.
  intros size file Hne Hs Hl.
  assert (H0 : (0 < length file)%nat) by (destruct file; [congruence|cbn; lia]).
  pose proof (f64_never_over size (length file) H0) as Ho.
  pose proof (f64_never_far_under size (length file) H0 ltac:(lia) ltac:(lia)) as Hu.
  destruct (subsample_spec (f64_below size (length file)) file) as (ps & H & E).
  exists ps. eexists. split; [exact H|]. split; [exact E|]. split.
  { eexists. split; [apply choices_length|reflexivity]. }
  intros M HM. split.
  - destruct (choices_upper _ size (length file) Ho ps 0 0) as [E2|(before & p & E2 & Hp & Hlt)].
    + rewrite (ip_concat _ _ H). lia.
    + apply (f_equal (@concat byte)) in E2. 
      assert (X : forall l : bstr, l = [] -> length l < size + M).
      { intros l ->. cbn. destruct ps as [|p ps]; [|destruct (ip_each _ _ H p (or_introl eq_refl)) as (Q & _)].
        - pose proof (ip_concat _ _ H) as Q. cbn in Q. congruence.
        - pose proof (HM p (or_introl eq_refl)). destruct p; [congruence|cbn in *; lia]. }
      apply X. exact E2.
    + apply (f_equal (fun l => length (@concat byte l))) in E2. rewrite concat_app, app_length in E2.
      cbn [concat] in E2. rewrite app_nil_r in E2. specialize (HM p Hp).
      eapply Nat.le_lt_trans; [apply Nat.eq_le_incl; exact E2|]. lia.
  - pose proof (choices_lower _ size (length file) M Hu Hs ps 0 0) as X.
    rewrite (ip_concat _ _ H) in X. cbn [Nat.add] in X. specialize (X (le_n _) HM).
    rewrite Nat.mul_0_r in X. specialize (X (Nat.le_0_l _)).
    apply Nat.mul_le_mono_pos_r in X; [exact X|lia].
Qed.

Example C31_float_example : let file := [x61;x0a;x0a;x62;x0a;x0a;x0a;x63] in
  file <> [] /\ 4 <= length file /\ (Z.of_nat (length file) <= 2 ^ 52)%Z.
Proof. cbn. repeat split; [discriminate|lia|lia]. Qed.
