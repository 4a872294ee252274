(** * Property C50: the preloaded sampler. *)
From Verif Require Import Base BaseLemmas Utf8 SamplerModel PropSampler.

(** ** Specification *)
(** [piece] is the content of [file] from [start] on, inside the window
    [lo .. hi). *)
Definition lies_at (file piece : bstr) (lo hi start : nat) : Prop :=
  lo <= start /\ start + length piece <= hi /\ hi <= length file /\
  piece = firstn (length piece) (skipn start file).

Lemma slice_sub {A} (v : list A) a b r : slice v a b = Ret r ->
  exists pre post, v = pre ++ r ++ post /\ length pre = a /\ length r = b - a.
Proof.
  unfold slice. destruct (Nat.leb_spec a b) as [Hab|]; [|discriminate].
  destruct (Nat.leb_spec b (length v)) as [Hb|]; [|discriminate]. cbn. intros E. injection E as <-.
  exists (firstn a v), (skipn (b - a) (skipn a v)).
  rewrite firstn_skipn, firstn_skipn. split; [reflexivity|].
  rewrite !firstn_length, skipn_length. lia.
Qed.

Lemma extract_sub w r : extract_valid_utf8_slice w = Ret r -> exists pre post, w = pre ++ r ++ post.
Proof.
  unfold extract_valid_utf8_slice. intros H.
  apply bind_ret in H as (last & _ & H). apply bind_ret in H as (b & _ & H).
  apply bind_ret in H as (stop & _ & H). apply slice_sub in H as (pre & post & E & _).
  eauto.
Qed.

Lemma preload_chunk_sub file size step i c : i * step + size <= length file ->
  preload_chunk file size step i = Ret c ->
  exists start, lies_at file c (i * step) (i * step + size) start.
Proof.
  intros Hw H. unfold preload_chunk in H.
  apply bind_ret in H as (para & Hp & H). apply bind_ret in H as (c' & Hc' & H).
  apply bind_ret in H as (v & Hv & H). injection H as <-.
  apply slice_sub in Hc' as (p0 & post & Ec & Lp0 & Lc). destruct p0; [|discriminate]. cbn in Ec.
  apply extract_sub in Hv as (pre & post2 & Ev).
  assert (Lw : length (firstn size (skipn (i * step) file)) = size)
    by (rewrite firstn_length, skipn_length; lia).
  assert (Hgen : forall pre c post, firstn size (skipn (i * step) file) = pre ++ c ++ post ->
            lies_at file c (i * step) (i * step + size) (i * step + length pre)).
  { clear - Lw Hw. intros pre c post E. rewrite E, !app_length in Lw.
    repeat split; try lia.
    apply (f_equal (fun l => firstn (length c) (skipn (length pre) l))) in E.
    rewrite skipn_length_app, firstn_length_app in E.
    rewrite skipn_firstn_comm, firstn_firstn, Nat.min_l, skipn_skipn in E by lia.
    rewrite (Nat.add_comm (i * step)). symmetry. exact E. }
  destruct (length v =? length c').
  - exists (i * step + length (@nil byte)). apply Hgen with (post := post). exact Ec.
  - exists (i * step + length pre). apply Hgen with (post := post2 ++ post).
    rewrite Ec, Ev, <- !app_assoc. reflexivity.
Qed.

(** The plan: the windows fit. *)
Lemma preload_plan_spec len sample_size max_samples size n :
  preload_plan len sample_size max_samples = (size, n) -> n <> 0 ->
  size <= len / n /\ n * (len / n) <= len /\ size <= sample_size /\ (n <= max_samples \/ n = 1).
Proof.
  unfold preload_plan. intros H Hn.
  destruct (Nat.leb_spec len sample_size) as [H1|H1]; [|destruct (Nat.leb_spec len (sample_size * max_samples)) as [H2|H2]];
    injection H as <- <-.
  - rewrite Nat.div_1_r. lia.
  - assert (Hs : sample_size <> 0) by (intros ->; rewrite Nat.mul_0_l in H2; lia).
    pose proof (Nat.mul_div_le len (len / sample_size) Hn).
    pose proof (Nat.mul_div_le len sample_size Hs).
    split; [apply Nat.div_le_lower_bound; lia|]. split; [assumption|]. split; [lia|left].
    apply Nat.div_le_upper_bound; lia.
  - pose proof (Nat.mul_div_le len max_samples Hn).
    split; [apply Nat.div_le_lower_bound; lia|]. split; [assumption|]. split; [lia|left; lia].
Qed.

Lemma Forall2_seq_nth {A} (R : nat -> A -> Prop) l : forall k n,
  Forall2 R (seq k n) l -> length l = n /\ forall i x, nth_error l i = Some x -> R (k + i) x.
Proof.
  induction l as [|x l IH]; intros k n H; destruct n as [|n]; inversion H; subst.
  - split; [reflexivity|]. intros [|i]; discriminate.
  - apply IH in H5 as (L & Hi). split; [cbn; f_equal; exact L|].
    intros [|i] y E; cbn in E.
    + injection E as <-. rewrite Nat.add_0_r. exact H3.
    + replace (k + S i) with (S k + i) by lia. apply Hi. exact E.
Qed.

(** C50: the chunks come from windows of equal size, at most [sample_size], laid
    out one after another without overlap inside the file; there are at most
    [max_samples] of them; the reported total is the sum of their sizes. *)
Theorem C50_windows_disjoint : forall file sample_size max_samples chunks total,
  preload file sample_size max_samples = Ret (chunks, total) ->
  exists size step, size <= step /\ length chunks * step <= length file /\ size <= sample_size /\
    0 < length chunks <= Nat.max 1 max_samples /\
    (forall i c, nth_error chunks i = Some c ->
       exists start, lies_at file c (i * step) (i * step + size) start) /\
    total = list_sum (map (@length byte) chunks) /\ total <= length file.
Proof.
  intros file ss ms chunks total H. unfold preload in H.
  destruct (preload_plan (length file) ss ms) as (size, n) eqn:Ep.
  apply bind_ret in H as ([] & Hn & H). apply assert_that_ret in Hn. apply negb_true_iff, Nat.eqb_neq in Hn.
  apply bind_ret in H as (l & Hl & H). injection H as <- <-.
  destruct (preload_plan_spec _ _ _ _ _ Ep Hn) as (P1 & P2 & P3 & P4).
  apply mmap_ret in Hl.
  apply (Forall2_seq_nth (fun i c => preload_chunk file size (length file / n) i = Ret c)) in Hl as (L & Hl).
  exists size, (length file / n). rewrite L.
  assert (Hpos : forall i c, nth_error l i = Some c ->
     exists start, lies_at file c (i * (length file / n)) (i * (length file / n) + size) start).
  { intros i c Hi. specialize (Hl i c Hi). assert (i < n) by (rewrite <- L; apply nth_error_Some; congruence).
    apply preload_chunk_sub; [nia|exact Hl]. }
  split; [exact P1|]. split; [exact P2|]. split; [exact P3|]. split; [lia|]. split; [exact Hpos|].
  split; [reflexivity|].
  assert (Hb : list_sum (map (@length byte) l) <= n * (length file / n)); [|unfold sum, list_sum in *; lia].
  rewrite <- L at 1. assert (Hc : forall c, In c l -> length c <= length file / n).
  { intros c Hc. apply In_nth_error in Hc as (i & Hi). destruct (Hpos i c Hi) as (s & Q1 & Q2 & _). lia. }
  clear -Hc. revert Hc. generalize (length file / n) as st. intros st Hc. induction l as [|c l IH]; [cbn; lia|]. cbn [map list_sum fold_right length].
  assert (length c <= st) by (apply Hc; left; reflexivity).
  assert (X : list_sum (map (@length byte) l) <= length l * st)
    by (apply IH; intros; apply Hc; right; assumption). unfold list_sum in X. lia.
Qed.

(** Any four consecutive bytes of a text include a start of character. *)
Lemma four_bytes_start data : utf8 data -> forall k, k + 4 <= length data ->
  exists j b, k <= j < k + 4 /\ nth_error data j = Some b /\ starts_char b.
Proof.
  assert (Hfirst : forall c, utf8_char c -> exists b q, c = b :: q /\ starts_char b).
  { intros c Hc. unfold starts_char. destruct Hc; eexists _, _; (split; [reflexivity|lia]). }
  induction 1 as [|c rest Hc Hr IH]; intros k Hk; [cbn in Hk; lia|].
  rewrite app_length in Hk. pose proof (utf8_char_length c Hc) as Lc.
  destruct (Nat.le_gt_cases (length c) k) as [Hge|Hlt].
  - destruct (IH (k - length c)) as (j & b & Hj & Hn & Hs); [lia|].
    exists (length c + j), b. split; [lia|]. split; [|exact Hs].
    rewrite nth_error_app2 by lia. rewrite <- Hn. f_equal. lia.
  - destruct (Nat.eq_dec k 0) as [->|Hk0].
    + destruct (Hfirst c Hc) as (b & q & -> & Hs). exists 0, b. repeat split; auto; lia.
    + destruct Hr as [|c2 rest Hc2 Hr]; [cbn in Hk; lia|].
      destruct (Hfirst c2 Hc2) as (b & q & -> & Hs). exists (length c), b.
      repeat split; auto; try lia. rewrite nth_error_app2 by lia. rewrite Nat.sub_diag. reflexivity.
Qed.

(** For a text file, positive limits and samples of at least four bytes, the
    sampler is built, and the samples it yields are exactly those chunks: valid
    text, whose sizes add up to the reported total. *)
Theorem C50_samples_are_text : forall file sample_size max_samples,
  utf8 file -> file <> [] -> 4 <= sample_size -> 0 < max_samples ->
  exists chunks total, preload file sample_size max_samples = Ret (chunks, total) /\
    preload_samples chunks = chunks /\ Forall utf8 chunks /\
    total = list_sum (map (@length byte) (preload_samples chunks)).
Proof.
  intros file ss ms Hu Hne H4 Hms. unfold preload.
  destruct (preload_plan (length file) ss ms) as (size, n) eqn:Ep.
  assert (Hlen : 0 < length file) by (destruct file; [congruence|cbn; lia]).
  assert (Hn : n <> 0 /\ (4 <= size \/ n = 1 /\ size = length file)).
  { revert Ep. unfold preload_plan.
    destruct (Nat.leb_spec (length file) ss) as [H1|H1]; [|destruct (Nat.leb_spec (length file) (ss * ms)) as [H2|H2]];
      intros E; injection E as <- <-.
    - split; [lia|right; auto].
    - split; [|left; lia]. assert (1 <= length file / ss) by (apply Nat.div_le_lower_bound; lia). lia.
    - split; [lia|left; lia]. }
  destruct Hn as (Hn & Hsize). rewrite (proj2 (Nat.eqb_neq n 0) Hn). cbn [negb assert_that bind].
  destruct (preload_plan_spec _ _ _ _ _ Ep Hn) as (P1 & P2 & P3 & P4).
  set (step := length file / n) in *.
  assert (Hchunk : forall i, i < n -> exists c, preload_chunk file size step i = Ret c /\ utf8 c).
  { intros i Hi. unfold preload_chunk. set (w := firstn size (skipn (i * step) file)).
    assert (Hin : i * step + size <= length file) by nia.
    assert (Lw : length w = size) by (unfold w; rewrite firstn_length, skipn_length; lia).
    assert (Efile : file = firstn (i * step) file ++ w ++ skipn (i * step + size) file).
    { unfold w. rewrite (Nat.add_comm (i * step)), <- (skipn_skipn size), firstn_skipn, firstn_skipn. reflexivity. }
    destruct (C29_paragraph_end w (length w) (le_n _)) as (para & E & Hpara). rewrite E. cbn [bind].
    assert (Hple : para <= length w) by (destruct Hpara as [(Q & _)|(Q & _)]; lia).
    rewrite slice_ret by lia. cbn [bind]. rewrite Nat.sub_0_r. cbn [skipn].
    assert (Hst : exists b, In b (firstn para w) /\ starts_char b).
    { destruct Hpara as [(Q1 & (Q2 & Q3 & _) & _)|(-> & _)].
      - exists x0a. split; [|left; cbn; lia]. apply (nth_error_In _ (para - 1)).
        rewrite nth_error_firstn' by lia. exact Q3.
      - rewrite firstn_all. destruct Hsize as [Hs4|(-> & Hs)].
        + destruct (four_bytes_start file Hu (i * step)) as (j & b & Hj & Hb & Hs); [lia|].
          exists b. split; [|exact Hs]. apply (nth_error_In _ (j - i * step)). unfold w.
          rewrite nth_error_firstn', nth_error_skipn' by lia. rewrite <- Hb. f_equal. lia.
        + assert (i = 0) by lia. subst i. unfold w. cbn [Nat.mul skipn]. rewrite firstn_all2 by lia.
          inversion Hu as [|c r Hc Hr Ef]; subst; [cbn in Hlen; lia|].
          destruct Hc; eexists; (split; [left; reflexivity|unfold starts_char; lia]). }
    destruct (C30_trim_partial (firstn (i * step) file) (firstn para w) (skipn para w ++ skipn (i * step + size) file))
      as (pre & r & post & Er & Ew & Hr & _).
    { rewrite (app_assoc (firstn para w)), firstn_skipn, <- Efile. exact Hu. }
    { exact Hst. }
    rewrite Er. cbn [bind]. eexists. split; [reflexivity|].
    destruct (Nat.eqb_spec (length r) (length (firstn para w))) as [El|El]; [|exact Hr].
    rewrite Ew in El |- *. rewrite !app_length in El.
    destruct pre; [|cbn in El; lia]. destruct post; [|cbn in El; lia].
    cbn. rewrite app_nil_r. exact Hr. }
  destruct (mmap_total (preload_chunk file size step) (seq 0 n)) as (l & El).
  { intros i Hi. apply in_seq in Hi. destruct (Hchunk i) as (c & Ec & _); [lia|eauto]. }
  rewrite El. cbn [bind]. exists l, (sum (map (@length byte) l)). split; [reflexivity|].
  assert (Hall : Forall utf8 l).
  { apply mmap_ret in El. apply Forall2_seq_nth in El as (L & Hl). apply Forall_forall. intros c Hc.
    apply In_nth_error in Hc as (i & Hi). specialize (Hl i c Hi).
    destruct (Hchunk i) as (c2 & Ec & Hv); [rewrite <- L; apply nth_error_Some; congruence|].
    cbn [Nat.add] in Hl. rewrite Hl in Ec. injection Ec as ->. exact Hv. }
  assert (Es : preload_samples l = l) by (apply map_lossy_valid; exact Hall).
  rewrite Es. auto.
Qed.

(** An empty file, a zero limit or too small a sample panics. *)
Theorem C50_panics : (forall ss ms, preload [] ss ms = Panic) /\
  (forall file ss, file <> [] -> ss < length file -> preload file ss 0 = Panic) /\
  (exists file ms, utf8 file /\ preload file 1 ms = Panic).
Proof.
  split; [|split].
  - intros ss ms. reflexivity.
  - intros file ss Hne Hs. unfold preload, preload_plan.
    rewrite (proj2 (Nat.leb_gt _ _)) by lia. rewrite Nat.mul_0_r.
    rewrite (proj2 (Nat.leb_gt _ _)) by lia. reflexivity.
  - exists [xc3; xa9], 5. split; [|reflexivity].
    apply (utf8_cons [xc3; xa9] []); [apply uc2; cbn; lia|constructor].
Qed.

Example C50_example :
  preload [x61;x62;x63;x64;xc3;xa9;x66;x67;x68;x69] 4 2 = Ret ([[x61;x62;x63;x64]; [x66;x67;x68]], 7).
Proof. reflexivity. Qed.
