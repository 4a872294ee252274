(** * C82: the sizes, blocks and starting sets the older optimizer goes through. *)
From Verif Require Import Base BaseLemmas LegacyModel LegacyOptModel.

(** ** The block size *)
Lemma shrink_ok n : 1 <= n -> forall fuel block, block <= fuel ->
  exists b, shrink_block fuel n block = Ret b /\ b * b < n /\ b <= block /\ (b = block \/ n <= (2 * b + 1) * (2 * b + 1)) /\
    (2 <= n -> 1 <= block -> 1 <= b).
Proof.
  intros Hn. induction fuel as [|fuel IH]; intros block Hf.
  - assert (block = 0) as -> by lia. exists 0. cbn. destruct n; [lia|]. repeat split; auto; lia.
  - cbn [shrink_block]. destruct (Nat.leb_spec n (block * block)) as [H|H].
    + assert (Hb : 1 <= block) by (destruct block; cbn in H; lia).
      pose proof (Nat.div_mod_eq block 2) as Hdm. pose proof (Nat.mod_upper_bound block 2 ltac:(lia)) as Hm.
      destruct (IH (block / 2)) as (b & E & H1 & H2 & H3 & H4); [lia|].
      exists b. split; [exact E|]. split; [exact H1|]. split; [lia|]. split.
      * right. destruct H3 as [->|H3]; [|exact H3]. nia.
      * intros H5 _. apply H4; [exact H5|]. destruct block as [|[|block]]; lia.
    + exists block. repeat split; auto.
Qed.

Lemma shrink_zero fuel : shrink_block fuel 0 0 = OutOfFuel.
Proof. induction fuel as [|fuel IH]; [reflexivity|]. cbn. exact IH. Qed.

(** ** The set to start from *)

(** The sizes that are tried: n, n/2, n/4, ... as long as the one before is
    greater than 2. *)
Definition tried (n m : nat) : Prop := exists k, m = n / 2 ^ k /\ forall j, j < k -> 2 < n / 2 ^ j.

Lemma div_pow n j : n / 2 / 2 ^ j = n / 2 ^ S j.
Proof. rewrite Nat.div_div by (try apply Nat.pow_nonzero; lia). reflexivity. Qed.

Lemma load_prev_ok has : forall fuel n, n <= fuel ->
  exists r, load_prev fuel has n = Ret r /\
    match r with
    | Some m => exists k, m = n / 2 ^ k /\ has m = true /\ forall j, j < k -> 2 < n / 2 ^ j /\ has (n / 2 ^ j) = false
    | None => forall m, tried n m -> has m = false
    end.
Proof.
  induction fuel as [|fuel IH]; intros n Hn.
  - assert (n = 0) as -> by lia. cbn. destruct (has 0) eqn:E.
    + exists (Some 0). split; [reflexivity|]. exists 0. repeat split; auto; lia.
    + exists None. split; [reflexivity|]. intros m (k & -> & _). rewrite Nat.div_0_l by (apply Nat.pow_nonzero; lia). exact E.
  - cbn [load_prev]. destruct (has n) eqn:E.
    + exists (Some n). split; [reflexivity|]. exists 0. rewrite Nat.div_1_r. repeat split; auto; lia.
    + destruct (Nat.ltb_spec 2 n) as [H2|H2].
      * assert (Hd : n / 2 < n) by (apply Nat.div_lt; lia). destruct (IH (n / 2)) as (r & Er & Hr); [lia|].
        exists r. split; [exact Er|]. destruct r as [m|].
        -- destruct Hr as (k & Em & Hm & Hk). exists (S k). rewrite div_pow in Em. split; [exact Em|]. split; [exact Hm|].
           intros [|j] Hj; [change (2 ^ 0) with 1; rewrite Nat.div_1_r; auto|]. rewrite <- div_pow. apply Hk; lia.
        -- intros m (k & -> & Hk). destruct k as [|k]; [change (2 ^ 0) with 1; rewrite Nat.div_1_r; exact E|]. apply Hr. exists k. split; [symmetry; apply div_pow|].
           intros j Hj. rewrite div_pow. apply Hk; lia.
      * exists None. split; [reflexivity|]. intros m (k & -> & Hk). destruct k as [|k]; [change (2 ^ 0) with 1; rewrite Nat.div_1_r; exact E|].
        specialize (Hk 0 ltac:(lia)). change (2 ^ 0) with 1 in Hk. rewrite Nat.div_1_r in Hk. lia.
Qed.

(** ** All sizes *)
Lemma shrink_mono n : forall f block b, shrink_block f n block = Ret b -> forall f', f <= f' -> shrink_block f' n block = Ret b.
Proof.
  induction f as [|f IH]; intros block b H f' Hf.
  - destruct f'; cbn [shrink_block] in *; destruct (n <=? block * block); congruence.
  - destruct f' as [|f']; [lia|]. cbn [shrink_block] in *. destruct (n <=? block * block); [|exact H]. eapply IH; [exact H|lia].
Qed.

Lemma block_size_fun n f f' b b' : block_size f n = Ret b -> block_size f' n = Ret b' -> b = b'.
Proof.
  unfold block_size. intros H H'. pose proof (shrink_mono n f _ _ H (max f f') ltac:(lia)) as E.
  pose proof (shrink_mono n f' _ _ H' (max f f') ltac:(lia)) as E'. congruence.
Qed.

Lemma all_sizes_ok raw max : forall d n fuel, 1 <= n -> max + 1 <= n + d -> max + d <= fuel ->
  exists r, all_sizes fuel raw n max = Ret r /\
    forall m b, In (m, b) r <-> (exists k, m = n * 2 ^ k) /\ m <= max /\ (raw = true -> m < 128 * 8) /\ block_size m m = Ret b.
Proof.
  induction d as [|d IH]; intros n fuel Hn Hd Hf.
  - assert (Hlt : max < n) by lia. exists []. split.
    + destruct fuel; cbn [all_sizes]; destruct (Nat.leb_spec n max); try lia; reflexivity.
    + intros m b. split; [intros []|]. intros ((k & ->) & Hm & _). pose proof (Nat.pow_nonzero 2 k ltac:(lia)). nia.
  - destruct (Nat.leb_spec n max) as [Hle|Hgt].
    + destruct fuel as [|fuel]; [lia|]. cbn [all_sizes]. destruct (Nat.leb_spec n max); [|lia].
      destruct (shrink_ok n Hn n (n / 2)) as (b0 & E0 & _).
      { apply Nat.div_le_upper_bound; lia. }
      assert (Eb : block_size fuel n = Ret b0) by (apply (shrink_mono n n _ _ E0); lia).
      rewrite Eb. cbn [bind]. destruct (IH (2 * n) fuel) as (r & Er & Hr); [lia..|]. rewrite Er. cbn [bind].
      change (n <? reserved_tokens LDist8) with (n <? 1). destruct (Nat.ltb_spec n 1); [lia|]. cbn [orb].
      assert (Hstep : forall m, (exists k, m = n * 2 ^ k) <-> m = n \/ exists k, m = 2 * n * 2 ^ k).
      { intros m. split.
        - intros ([|k] & ->); [left; change (2 ^ 0) with 1; lia|right]. exists k. rewrite Nat.pow_succ_r'. lia.
        - intros [->|(k & ->)]; [exists 0; change (2 ^ 0) with 1; lia|]. exists (S k). rewrite Nat.pow_succ_r'. lia. }
      eexists. split; [reflexivity|]. intros m b. rewrite Hstep.
      assert (Hcase : (m = n /\ b = b0) \/ ~ (m = n /\ b = b0)) by (destruct (Nat.eq_dec m n), (Nat.eq_dec b b0); lia).
      destruct (raw && (128 * 8 <=? n)) eqn:Eraw.
      * apply andb_true_iff in Eraw as (Hraw & H1024). apply Nat.leb_le in H1024. rewrite Hr. split.
        -- intros (Hk & R). split; [right; exact Hk|exact R].
        -- intros ([->|Hk] & Hm & Hr' & R); [specialize (Hr' Hraw); lia|]. auto.
      * cbn [In]. rewrite Hr. split.
        -- intros [E|(Hk & R)]; [|split; [right; exact Hk|exact R]]. injection E as <- <-. split; [left; reflexivity|]. split; [exact Hle|].
           split; [|exact E0]. intros ->. cbn [andb] in Eraw. apply Nat.leb_gt in Eraw. exact Eraw.
        -- intros ([->|Hk] & Hm & Hr' & R); [|right; auto]. left. f_equal. eapply block_size_fun; [exact E0|exact R].
    + exists []. split.
      * destruct fuel; cbn [all_sizes]; destruct (Nat.leb_spec n max); try lia; reflexivity.
      * intros m b. split; [intros []|]. intros ((k & ->) & Hm & _). pose proof (Nat.pow_nonzero 2 k ltac:(lia)). nia.
Qed.

(** ** C82 *)

(** From a positive number of tokens on: the run ends, for exactly the sizes n, 2n, 4n, ... up to the
    maximum (below 1024 for unprocessed text), and each size has the block the loop finds. *)
Theorem C82_sizes_partial :
  (forall n, 2 <= n -> exists b, (forall fuel, n <= fuel -> block_size fuel n = Ret b) /\
     1 <= b /\ b * b < n /\ (b = n / 2 \/ n <= (2 * b + 1) * (2 * b + 1))) /\
  (forall raw n max, 1 <= n -> exists r, (forall fuel, 2 * max + 1 <= fuel -> all_sizes fuel raw n max = Ret r) /\
     forall m b, In (m, b) r <->
       (exists k, m = n * 2 ^ k) /\ m <= max /\ (raw = true -> m < 128 * 8) /\ block_size m m = Ret b) /\
  (forall has n, exists r, (forall fuel, n <= fuel -> load_prev fuel has n = Ret r) /\
     match r with
     | Some m => exists k, m = n / 2 ^ k /\ has m = true /\ forall j, j < k -> 2 < n / 2 ^ j /\ has (n / 2 ^ j) = false
     | None => forall k, (forall j, j < k -> 2 < n / 2 ^ j) -> has (n / 2 ^ k) = false
     end).
Proof.
  split; [|split].
  - intros n Hn. destruct (shrink_ok n ltac:(lia) n (n / 2)) as (b & E & H1 & H2 & H3 & H4).
    { apply Nat.div_le_upper_bound; lia. }
    exists b. split; [intros fuel Hf; apply (shrink_mono n n _ _ E); exact Hf|].
    split; [apply H4; [exact Hn|]; apply Nat.div_le_lower_bound; lia|]. auto.
  - intros raw n max Hn. destruct (all_sizes_ok raw max (max + 1) n (2 * max + 1) Hn ltac:(lia) ltac:(lia)) as (r & E & H).
    exists r. split; [|exact H]. intros fuel Hf.
    destruct (all_sizes_ok raw max (max + 1) n fuel Hn ltac:(lia) ltac:(lia)) as (r' & E' & H').
    rewrite E'. f_equal. clear H'. revert E E'. clear - Hf. revert r r'. generalize (2 * max + 1) as f1, Hf. clear Hf.
    intros f1 Hf r r' E E'. assert (G : forall f n r, all_sizes f raw n max = Ret r -> forall f', f <= f' -> all_sizes f' raw n max = Ret r).
    { clear. induction f as [|f IH]; intros n r E f' Hf.
      - destruct f'; cbn [all_sizes] in *; destruct (n <=? max); congruence.
      - destruct f' as [|f']; [lia|]. cbn [all_sizes] in *. destruct (n <=? max); [|exact E].
        apply bind_ret in E as (b & Eb & E). apply bind_ret in E as (q & Eq & E).
        unfold block_size in *. rewrite (shrink_mono n f _ _ Eb f') by lia. cbn [bind]. rewrite (IH _ _ Eq f') by lia. exact E. }
    pose proof (G _ _ _ E fuel Hf) as E2. congruence.
  - intros has n. destruct (load_prev_ok has n n (Nat.le_refl n)) as (r & E & H). exists r. split.
    + intros fuel Hf. assert (G : forall f m r, load_prev f has m = Ret r -> forall f', f <= f' -> load_prev f' has m = Ret r).
      { clear. induction f as [|f IH]; intros m r E f' Hf.
        - destruct f'; cbn [load_prev] in *; destruct (has m), (2 <? m); congruence.
        - destruct f' as [|f']; [lia|]. cbn [load_prev] in *. destruct (has m); [exact E|]. destruct (2 <? m); [|exact E]. eapply IH; [exact E|lia]. }
      eapply G; [exact E|exact Hf].
    + destruct r as [m|]; [exact H|]. intros k Hk. apply H. exists k. auto.
Qed.

(** From 0 tokens on the loop for the block never ends. *)
Theorem C82_sizes_refuted : forall raw max fuel, all_sizes fuel raw 0 max = OutOfFuel.
Proof.
  intros raw max [|fuel]; [reflexivity|]. cbn [all_sizes]. change (0 <=? max) with true. cbn [block_size].
  unfold block_size. change (0 / 2) with 0. rewrite shrink_zero. reflexivity.
Qed.

Example C82_example : all_sizes 100 false 2 16 = Ret [(2, 1); (4, 1); (8, 2); (16, 2)] /\ load_prev 9 (fun m => m =? 3) 14 = Ret (Some 3).
Proof. split; reflexivity. Qed.
