(** * Property C68: random samples of a file. *)
From Verif Require Import Base BaseLemmas Utf8 SamplerModel PropSampler.

(** What the random number generator and the reads may return for a file that
    is longer than a sample. *)
Definition draws_ok (file : bstr) (size : nat) (draw : nat -> nat * nat) : Prop :=
  forall i, fst (draw i) < length file - size /\ read_ok file size (fst (draw i)) (snd (draw i)).

(** [sampled file size start got stop]: the sample that starts at [start], of
    which [got] bytes were read, ends at [stop]: after the last blank line
    among the bytes read, or with them if there is none. *)
Definition sampled (file : bstr) (start got stop : nat) : Prop :=
  (start + 2 <= stop <= start + got /\ after_blank file stop /\
     forall q, stop < q <= start + got -> ~ after_blank file q) \/
  (stop = start + got /\ forall q, start + 2 <= q <= start + got -> ~ after_blank file q).

Lemma firstn_subset {A} n (l : list A) x : In x (firstn n l) -> In x l.
Proof. intros H. rewrite <- (firstn_skipn n l). apply in_app_iff. left; exact H. Qed.
Lemma skipn_subset {A} n (l : list A) x : In x (skipn n l) -> In x l.
Proof. intros H. rewrite <- (firstn_skipn n l). apply in_app_iff. right; exact H. Qed.

Lemma next_random_spec file size start got :
  0 < size -> start < length file - size -> read_ok file size start got ->
  exists stop, sampled file start got stop /\ start < stop <= start + size /\ stop < length file /\
    file_next_random file size start got = sample_from_vec (firstn (stop - start) (skipn start file)).
Proof.
  intros Hs Hst (Hr1 & Hr2). unfold file_next_random, file_random_start.
  assert (Hg : 0 < got) by (destruct got; [specialize (Hr2 eq_refl); lia|lia]).
  unfold checked_sub. rewrite (proj2 (Nat.leb_le _ _)) by lia. cbn [bind].
  rewrite (proj2 (Nat.ltb_lt _ _)) by lia. cbn [assert_that bind].
  rewrite (proj2 (Nat.ltb_lt _ _)) by lia. cbn [assert_that bind].
  set (buffer := firstn got (skipn start file)).
  assert (Lb : length buffer = got) by (unfold buffer; rewrite firstn_length, skipn_length; lia).
  assert (Hn : forall k, k < got -> nth_error buffer k = nth_error file (start + k)).
  { intros k Hk. unfold buffer. rewrite nth_error_firstn' by exact Hk. rewrite nth_error_skipn'. reflexivity. }
  assert (Hab : forall p, p <= got -> after_blank buffer p <-> 2 <= p /\ after_blank file (start + p)).
  { intros p Hpg. unfold after_blank. split.
    - intros (H2 & H3 & H4). rewrite Hn in H3, H4 by lia.
      replace (start + p - 1) with (start + (p - 1)) by lia. replace (start + p - 2) with (start + (p - 2)) by lia.
      repeat split; auto; lia.
    - intros (H1 & H2 & H3 & H4). rewrite !Hn by lia.
      replace (start + p - 1) with (start + (p - 1)) in H3 by lia. replace (start + p - 2) with (start + (p - 2)) in H4 by lia.
      auto. }
  rewrite Lb. destruct (C29_paragraph_end buffer got) as (stop & E & H); [lia|]. rewrite E. cbn [bind].
  assert (Hle : stop <= got) by (destruct H as [(H & _)|(-> & _)]; lia).
  exists (start + stop). replace (start + stop - start) with stop by lia.
  assert (Ef : firstn stop buffer = firstn stop (skipn start file)).
  { unfold buffer. rewrite firstn_firstn, Nat.min_l by lia. reflexivity. }
  rewrite Ef. split; [|split; [|split; [|reflexivity]]].
  - destruct H as [(_ & H1 & H2)|(-> & H2)]; [left|right].
    + apply Hab in H1 as (H0 & H1); [|lia]. split; [lia|]. split; [exact H1|]. intros q Hq Hb.
      apply (H2 (q - start)); [lia|]. apply Hab; [lia|]. replace (start + (q - start)) with q by lia. split; [lia|exact Hb].
    + split; [reflexivity|]. intros q Hq Hb. apply (H2 (q - start)); [lia|]. apply Hab; [lia|].
      replace (start + (q - start)) with q by lia. split; [lia|exact Hb].
  - destruct H as [(_ & (H & _) & _)|(-> & _)]; lia.
  - lia.
Qed.

(** What holds: either a sample starts or ends inside a character and the
    program panics, or there are exactly [k] samples, each the piece of the file
    described above; never more bytes than announced, and never the last byte of the
    file. *)
Theorem C68_random_samples_partial : forall file size k draw,
  0 < size -> size < length file -> draws_ok file size draw ->
  exists ends : nat -> nat,
    (forall i, let start := fst (draw i) in sampled file start (snd (draw i)) (ends i) /\
       start < ends i <= start + size /\ ends i < length file) /\
    let piece i := firstn (ends i - fst (draw i)) (skipn (fst (draw i)) file) in
    ((forall i, i < k -> utf8 (piece i)) /\ file_random_samples file size k draw = Ret (map piece (seq 0 k)) /\
       sum (map (@length byte) (map piece (seq 0 k))) <= file_total_size file size (Some k)) \/
    ((exists i, i < k /\ ~ utf8 (piece i)) /\ file_random_samples file size k draw = Panic).
Proof.
  intros file size k draw Hs Hl Hd.
  assert (G : forall i, exists stop, sampled file (fst (draw i)) (snd (draw i)) stop /\
     fst (draw i) < stop <= fst (draw i) + size /\ stop < length file /\
     file_next_random file size (fst (draw i)) (snd (draw i)) = sample_from_vec (firstn (stop - fst (draw i)) (skipn (fst (draw i)) file))).
  { intros i. destruct (Hd i) as (H1 & H2). apply next_random_spec; assumption. }
  (* the end of a sample is a function of the draw *)
  set (ends i := fst (draw i) + match find_paragraph_end (firstn (snd (draw i)) (skipn (fst (draw i)) file))
                                   (length (firstn (snd (draw i)) (skipn (fst (draw i)) file))) with Ret p => p | _ => 0 end).
  assert (H : forall i, sampled file (fst (draw i)) (snd (draw i)) (ends i) /\
     fst (draw i) < ends i <= fst (draw i) + size /\ ends i < length file /\
     file_next_random file size (fst (draw i)) (snd (draw i)) = sample_from_vec (firstn (ends i - fst (draw i)) (skipn (fst (draw i)) file))).
  { intros i. destruct (G i) as (stop & A & B & C & D). assert (ends i = stop) as ->; [|auto].
    unfold sampled in A. destruct (Hd i) as (Hd1 & Hd2).
    destruct (next_random_spec file size _ _ Hs Hd1 Hd2) as (stop' & A' & B' & C' & D').
    assert (E1 : stop = stop').
    { clear -A A'. unfold sampled in A'.
      destruct A as [(A1 & A2 & A3)|(-> & A3)], A' as [(B1 & B2 & B3)|(-> & B3)]; [|exfalso; eapply B3; eauto|exfalso; eapply A3; eauto|reflexivity].
      destruct (Nat.lt_total stop stop') as [Hlt|[He|Hlt]]; [exfalso; apply (A3 stop'); [lia|exact B2]|exact He|exfalso; apply (B3 stop); [lia|exact A2]]. }
    unfold ends.
    (* the value of the search *)
    set (buffer := firstn (snd (draw i)) (skipn (fst (draw i)) file)) in *.
    assert (Lb : length buffer = snd (draw i)) by (unfold buffer; rewrite firstn_length, skipn_length; destruct Hd2; lia).
    rewrite Lb. destruct (C29_paragraph_end buffer (snd (draw i))) as (p & Ep & Hp); [lia|]. rewrite Ep.
    assert (Hn : forall j, j < snd (draw i) -> nth_error buffer j = nth_error file (fst (draw i) + j)).
    { intros j Hj. unfold buffer. rewrite nth_error_firstn' by exact Hj. rewrite nth_error_skipn'. reflexivity. }
    assert (Hab : forall q, 2 <= q <= snd (draw i) -> after_blank buffer q <-> after_blank file (fst (draw i) + q)).
    { intros q Hq. unfold after_blank. rewrite !Hn by lia.
      replace (fst (draw i) + q - 1) with (fst (draw i) + (q - 1)) by lia. replace (fst (draw i) + q - 2) with (fst (draw i) + (q - 2)) by lia.
      intuition lia. }
    destruct Hp as [(P1 & P2 & P3)|(-> & P3)], A as [(A1 & A2 & A3)|(-> & A3)].
    - assert (2 <= p) by (destruct P2; assumption).
      destruct (Nat.lt_total (fst (draw i) + p) stop) as [Hlt|[He|Hlt]]; [|exact He|].
      + exfalso. apply (P3 (stop - fst (draw i))); [lia|]. apply Hab; [lia|].
        replace (fst (draw i) + (stop - fst (draw i))) with stop by lia. exact A2.
      + exfalso. apply (A3 (fst (draw i) + p)); [lia|]. apply Hab; [lia|exact P2].
    - assert (2 <= p) by (destruct P2; assumption). exfalso. apply (A3 (fst (draw i) + p)); [lia|]. apply Hab; [lia|exact P2].
    - exfalso. apply (P3 (stop - fst (draw i))); [lia|]. apply Hab; [lia|].
      replace (fst (draw i) + (stop - fst (draw i))) with stop by lia. exact A2.
    - reflexivity. }
  clear G. exists ends. split; [intros i; destruct (H i) as (A & B & C & _); auto|]. intros piece.
  unfold file_random_samples.
  assert (K : forall l, (Forall (fun i => utf8 (piece i)) l /\
      mmap (fun i => file_next_random file size (fst (draw i)) (snd (draw i))) l = Ret (map piece l)) \/
      ((exists i, In i l /\ ~ utf8 (piece i)) /\ mmap (fun i => file_next_random file size (fst (draw i)) (snd (draw i))) l = Panic)).
  { induction l as [|i l IH]; cbn [mmap map].
    - left. auto.
    - destruct (H i) as (_ & _ & _ & ->). fold (piece i).
      destruct (sample_from_vec_cases (piece i)) as [(Hu & ->)|(Hu & ->)]; cbn [bind].
      + destruct IH as [(F & ->)|((j & Hj & Hx) & ->)]; cbn [bind]; [left|right].
        * auto.
        * split; [|reflexivity]. exists j. split; [right; exact Hj|exact Hx].
      + right. split; [|reflexivity]. exists i. split; [left; reflexivity|exact Hu]. }
  destruct (K (seq 0 k)) as [(F & E)|((i & Hi & Hx) & E)]; [left|right].
  - split; [intros i Hi; rewrite Forall_forall in F; apply F, in_seq; lia|]. split; [exact E|].
    cbn [file_total_size]. rewrite map_map.
    assert (L : forall i, length (piece i) <= size).
    { intros i. unfold piece. rewrite firstn_length. destruct (H i) as (_ & B & _). lia. }
    clear -L. generalize 0. induction k as [|k IH]; intros a; unfold sum in *; cbn; [lia|]. specialize (IH (S a)). specialize (L a). lia.
  - split; [|exact E]. exists i. split; [apply in_seq in Hi; lia|exact Hx].
Qed.

(** Files that are not longer than a sample make it panic. *)
Theorem C68_short_file_panics : forall file size k draw,
  length file <= size -> 0 < k -> file_random_samples file size k draw = Panic.
Proof.
  intros file size k draw Hl Hk. destruct k as [|k]; [lia|]. unfold file_random_samples. cbn [seq mmap].
  unfold file_next_random, file_random_start, checked_sub. destruct (Nat.leb_spec size (length file)) as [H|H]; cbn [bind].
  - replace (length file - size) with 0 by lia. reflexivity.
  - reflexivity.
Qed.

(** Valid text can make it panic, for every sample size, even if the reads
    return as much as possible; and no sample contains the last byte. *)
Theorem C68_random_samples_refuted : forall size, 0 < size ->
  exists file draw, utf8 file /\ size < length file /\ draws_ok file size draw /\
    forall k, 0 < k -> file_random_samples file size k draw = Panic.
Proof.
  intros size Hs. set (a := repeat x61 (size - 1)).
  set (file := a ++ [xc3; xa9]).
  assert (Ha : utf8 a).
  { apply utf8_ascii, Forall_forall. intros b Hb. apply repeat_spec in Hb as ->. cbn. lia. }
  assert (La : length a = size - 1) by apply repeat_length.
  assert (Ld : length file = size + 1) by (unfold file; rewrite app_length, La; cbn; lia).
  assert (Hu : utf8 file).
  { apply utf8_app; [exact Ha|]. apply (utf8_cons [xc3; xa9] []); [apply uc2; cbn; lia|constructor]. }
  assert (Hnb : forall p, ~ after_blank file p).
  { intros p (_ & H & _). apply nth_error_In in H. unfold file in H. apply in_app_iff in H as [H|H].
    - apply repeat_spec in H. discriminate.
    - cbn in H. intuition discriminate. }
  assert (F : firstn size file = a ++ [xc3]).
  { replace size with (length (a ++ [xc3])) by (rewrite app_length, La; cbn; lia).
    unfold file. change [xc3; xa9] with ([xc3] ++ [xa9]). rewrite app_assoc. apply firstn_length_app. }
  exists file, (fun _ => (0, size)).
  assert (Hd : draws_ok file size (fun _ => (0, size))) by (intros i; cbn; unfold read_ok; lia).
  split; [exact Hu|]. split; [lia|]. split; [exact Hd|]. intros k Hk.
  destruct (C68_random_samples_partial file size k _ Hs ltac:(lia) Hd) as (ends & He & [(H & _)|(_ & H)]); [exfalso|exact H].
  specialize (H 0 Hk). destruct (He 0) as ([(_ & Hx & _)|(Ex & _)] & _); [apply (Hnb _ Hx)|]. cbn [fst snd] in *.
  rewrite Ex, Nat.sub_0_r in H. cbn [skipn Nat.add] in H. rewrite F in H.
  apply utf8_app_inv in H; [|exact Ha]. apply utf8_bytes_single in H. cbn in H. lia.
Qed.

(** ASCII text longer than a sample is always sampled. *)
Theorem C68_ascii_file : forall file size k draw,
  Forall (fun b => b2n b < 128) file -> 0 < size -> size < length file -> draws_ok file size draw ->
  exists l, file_random_samples file size k draw = Ret l /\ length l = k /\
    Forall (fun s => s <> [] /\ length s <= size /\ exists u v, file = u ++ s ++ v /\ v <> []) l.
Proof.
  intros file size k draw Ha Hs Hl Hd.
  destruct (C68_random_samples_partial file size k draw Hs Hl Hd) as (ends & He & [(_ & E & _)|((i & _ & Hx) & _)]).
  - eexists. split; [exact E|]. split; [rewrite map_length, seq_length; reflexivity|].
    apply Forall_forall. intros s Hi. apply in_map_iff in Hi as (i & <- & _). destruct (He i) as (_ & H1 & H2). cbn beta zeta in *.
    set (st := fst (draw i)) in *.
    assert (Ls : length (firstn (ends i - st) (skipn st file)) = ends i - st) by (rewrite firstn_length, skipn_length; lia).
    split; [intros E0; rewrite E0 in Ls; cbn in Ls; lia|]. split; [lia|].
    exists (firstn st file), (skipn (ends i - st) (skipn st file)).
    rewrite firstn_skipn, firstn_skipn. split; [reflexivity|].
    intros E0. apply (f_equal (@length byte)) in E0. rewrite !skipn_length in E0. cbn in E0. lia.
  - exfalso. apply Hx, utf8_ascii. apply Forall_forall. intros b Hb. rewrite Forall_forall in Ha. apply Ha.
    apply firstn_subset, skipn_subset in Hb. exact Hb.
Qed.

Example C68_example :
  file_random_samples [x61; x0a; x0a; x62; x63; x64; x65; x66] 5 2 (fun i => (i, 5)) =
    Ret [[x61; x0a; x0a]; [x0a; x0a]] /\
  draws_ok [x61; x0a; x0a; x62; x63; x64; x65; x66] 5 (fun i => (Nat.min i 2, 5)).
Proof. split; [reflexivity|]. intros i. unfold read_ok. cbn [fst snd length]. lia. Qed.
