(** * C27, C28: exactly when the samplers keep the text
    C27 and C28 are false of the code in general (PropSampler.v).  Here the
    exact condition is proved, for every input: the memory sampler hands back
    the text, and the file sampler does not panic, if and only if every place
    where the text is cut is between two characters. *)
From Verif Require Import Base BaseLemmas Utf8 SamplerModel PropSampler.

(** ** Lossy decoding never shortens *)
Lemma utf8_step_false s n : utf8_step s = (false, n) -> n <= 3.
Proof.
  destruct s as [|b0 r]; cbn [utf8_step]; [intros E; injection E as <-; lia|].
  repeat match goal with
         | |- context [if ?x then _ else _] => destruct x
         | |- context [match ?l with [] => _ | _ :: _ => _ end] => destruct l
         end; intros E; try discriminate; injection E as <-; lia.
Qed.

Lemma lossy_fuel_longer : forall f s, length s <= f -> length s <= length (lossy_fuel f s).
Proof.
  induction f as [|f IH]; intros s Hl; destruct s as [|b r]; cbn [lossy_fuel length]; try (cbn in Hl; lia).
  destruct (utf8_step (b :: r)) as [ok n] eqn:E.
  assert (Hn : 1 <= n <= length (b :: r)) by (eapply utf8_step_pos; eauto; discriminate).
  assert (Hs : length (skipn n (b :: r)) <= f) by (rewrite skipn_length; cbn [length] in *; lia).
  specialize (IH _ Hs). rewrite skipn_length in IH. rewrite app_length. cbn [length] in *.
  destruct ok.
  - rewrite firstn_length. cbn [length]. lia.
  - apply utf8_step_false in E. cbn [replacement length]. lia.
Qed.

Lemma lossy_longer s : length s <= length (utf8_lossy s).
Proof. apply lossy_fuel_longer. lia. Qed.

Lemma concat_lossy_longer l : length (concat l) <= length (concat (map utf8_lossy l)).
Proof.
  induction l as [|s l IH]; cbn; [lia|]. rewrite !app_length. pose proof (lossy_longer s). lia.
Qed.

Lemma concat_lossy_eq l : concat (map utf8_lossy l) = concat l <-> Forall utf8 l.
Proof.
  split; [|intros H; rewrite map_lossy_valid by exact H; reflexivity].
  induction l as [|s l IH]; cbn; intros E; constructor.
  - pose proof (lossy_longer s). pose proof (concat_lossy_longer l).
    assert (length (utf8_lossy s) = length s) by (apply (f_equal (@length _)) in E; rewrite !app_length in E; lia).
    apply utf8_lossy_id_iff. apply (f_equal (firstn (length s))) in E.
    rewrite firstn_length_app in E. rewrite <- H1, firstn_length_app in E. exact E.
  - apply IH. pose proof (lossy_longer s). pose proof (concat_lossy_longer l).
    assert (Hl : length (utf8_lossy s) = length s) by (apply (f_equal (@length _)) in E; rewrite !app_length in E; lia).
    apply (f_equal (skipn (length s))) in E.
    rewrite skipn_length_app in E. rewrite <- Hl, skipn_length_app in E. exact E.
Qed.

(** Slices are all valid iff every prefix of them is. *)
Lemma prefixes_valid (l : list bstr) : Forall utf8 l <-> forall k, utf8 (concat (firstn k l)).
Proof.
  split.
  - intros H. induction H as [|s l Hs _ IH]; intros [|k]; cbn; try apply utf8_nil.
    apply utf8_app; auto.
  - induction l as [|s l IH]; intros H; constructor.
    + specialize (H 1). cbn in H. rewrite app_nil_r in H. exact H.
    + apply IH. intros k. pose proof (H 1) as H1. cbn in H1. rewrite app_nil_r in H1.
      specialize (H (S k)). cbn in H. eapply utf8_app_inv; eauto.
Qed.

Lemma concat_firstn_prefix {A} (l : list (list A)) k :
  concat (firstn k l) = firstn (length (concat (firstn k l))) (concat l).
Proof.
  rewrite <- (firstn_skipn k l) at 3. rewrite concat_app. symmetry. apply firstn_length_app.
Qed.

(** ** C27 *)
(** For every text and every chunk size: the samples are never shorter than the
    text; they give the text back if and only if every cut between two chunks,
    and the end of the text, is between two characters. *)
Theorem C27_text_kept_iff : forall data chunk fuel, 0 < chunk -> length data < fuel ->
  exists slices samples,
    memory_slices fuel data chunk 0 = Ret slices /\ chunked data chunk 0 slices /\
    memory_samples fuel data chunk = Ret samples /\
    length data <= length (concat samples) /\
    (concat samples = data <->
     forall k, k <= length slices -> char_boundary data (length (concat (firstn k slices)))).
Proof.
  intros data chunk fuel Hc Hf.
  destruct (C26_memory_sampler_slices data chunk fuel Hc Hf) as (l & E & C).
  exists l, (map utf8_lossy l). split; [exact E|]. split; [exact C|].
  split; [unfold memory_samples; rewrite E; reflexivity|].
  pose proof (chunked_concat _ _ _ _ C) as Hcat. cbn [skipn] in Hcat.
  clear E C Hf. subst data. split; [apply concat_lossy_longer|].
  rewrite concat_lossy_eq, prefixes_valid. unfold char_boundary.
  split.
  - intros H k _. exact (eq_ind _ utf8 (H k) _ (concat_firstn_prefix l k)).
  - intros H k. destruct (Nat.le_gt_cases k (length l)) as [Hk|Hk].
    + exact (eq_ind_r utf8 (H k Hk) (concat_firstn_prefix l k)).
    + rewrite firstn_all2 by lia. specialize (H (length l) (le_n _)). rewrite firstn_all, firstn_all in H. exact H.
Qed.

(** ** C28 *)
(** The cut after a read of [got] bytes at [pos]: a full buffer with a blank
    line is cut after its last blank line; any other at its end. *)
Definition read_cut (file : bstr) (size pos got stop : nat) : Prop :=
  let blank p := pos + 2 <= p <= pos + got /\ after_blank file p in
  (got = size /\ blank stop /\ forall p, blank p -> p <= stop) \/
  (stop = pos + got /\ (got < size \/ forall p, ~ blank p)).

(** [cuts_from pos cs]: [cs] are the ends of the samples handed out from [pos]. *)
Inductive cuts_from (reads : nat -> nat) (file : bstr) (size : nat) : nat -> list nat -> Prop :=
| cuts_end : cuts_from reads file size (length file) []
| cuts_next pos stop cs : pos < stop <= length file -> read_cut file size pos (reads pos) stop ->
    cuts_from reads file size stop cs -> cuts_from reads file size pos (stop :: cs).

Fixpoint pieces (file : bstr) (pos : nat) (cs : list nat) : list bstr :=
  match cs with [] => [] | stop :: cs => firstn (stop - pos) (skipn pos file) :: pieces file stop cs end.

Lemma file_next_cut file size pos got : pos <= length file -> read_ok file size pos got -> 0 < got ->
  exists stop, pos < stop <= length file /\ read_cut file size pos got stop /\
    file_next file size pos got = (s <- sample_from_vec (firstn (stop - pos) (skipn pos file)) ;;
                                    Ret (Some (s, stop))).
Proof.
  intros Hp (Hr & _) Hg. unfold file_next. rewrite (proj2 (Nat.eqb_neq _ _)) by lia.
  set (buffer := firstn got (skipn pos file)).
  assert (Lb : length buffer = got) by (unfold buffer; rewrite firstn_length, skipn_length; lia).
  assert (Hn : forall k, k < got -> nth_error buffer k = nth_error file (pos + k)).
  { intros k Hk. unfold buffer. rewrite nth_error_firstn' by exact Hk. rewrite nth_error_skipn'. reflexivity. }
  assert (Hab : forall p, p <= got -> after_blank buffer p <-> 2 <= p /\ after_blank file (pos + p)).
  { intros p Hpg. unfold after_blank. split.
    - intros (H2 & H3 & H4). rewrite Hn in H3, H4 by lia.
      replace (pos + p - 1) with (pos + (p - 1)) by lia. replace (pos + p - 2) with (pos + (p - 2)) by lia.
      repeat split; auto; lia.
    - intros (H1 & H2 & H3 & H4). rewrite !Hn by lia.
      replace (pos + p - 1) with (pos + (p - 1)) in H3 by lia. replace (pos + p - 2) with (pos + (p - 2)) in H4 by lia.
      auto. }
  destruct (Nat.ltb_spec got size) as [Hlt|Hge].
  - exists (pos + got). split; [lia|]. split; [right; auto|].
    replace (pos + got - pos) with got by lia. reflexivity.
  - destruct (C29_paragraph_end buffer got) as (stop & E & Hs); [lia|]. rewrite E. cbn [bind].
    assert (Hsg : stop <= got /\ 0 < stop).
    { destruct Hs as [(H1 & H2 & _)|(-> & _)]; [destruct H2|]; lia. }
    exists (pos + stop). split; [lia|]. split.
    + destruct Hs as [(H1 & H2 & H3)|(H1 & H3)].
      * left. split; [lia|]. apply Hab in H2; [|lia]. split; [split; [lia|apply H2]|].
        intros p (Hp1 & Hp2). destruct (Nat.le_gt_cases p (pos + stop)) as [Hle|Hgt]; [exact Hle|exfalso].
        apply (H3 (p - pos)); [lia|]. apply Hab; [lia|].
        replace (pos + (p - pos)) with p by lia. split; [lia|exact Hp2].
      * right. split; [lia|right]. intros p (Hp1 & Hp2).
        apply (H3 (p - pos)); [lia|]. apply Hab; [lia|].
        replace (pos + (p - pos)) with p by lia. split; [lia|exact Hp2].
    + replace (pos + stop - pos) with stop by lia.
      destruct (Nat.ltb_spec stop got) as [Hlt2|Hge2].
      * replace (firstn stop buffer) with (firstn stop (skipn pos file)).
        2:{ unfold buffer. rewrite firstn_firstn, Nat.min_l by lia. reflexivity. }
        replace (pos + got - (got - stop)) with (pos + stop) by lia. reflexivity.
      * assert (stop = got) by lia. subst stop. reflexivity.
Qed.

Lemma file_samples_exact reads file size : 0 < size ->
  (forall pos, read_ok file size pos (reads pos)) ->
  forall fuel pos, pos <= length file -> length file - pos < fuel ->
  exists cs, cuts_from reads file size pos cs /\
    ((Forall utf8 (pieces file pos cs) /\ file_samples fuel reads file size pos = Ret (pieces file pos cs)) \/
     (~ Forall utf8 (pieces file pos cs) /\ file_samples fuel reads file size pos = Panic)).
Proof.
  intros Hsz Hr. induction fuel as [|f IH]; intros pos Hp Hf; [lia|]. cbn [file_samples].
  destruct (Nat.eq_dec (reads pos) 0) as [E0|E0].
  - destruct (file_next_eof file size pos (reads pos) (Hr pos) E0) as (E & Hmin). rewrite E. cbn.
    assert (pos = length file) by lia. subst pos. exists []. split; [constructor|left]. split; [constructor|reflexivity].
  - destruct (file_next_cut file size pos (reads pos) Hp (Hr pos)) as (stop & H1 & H2 & E); [lia|].
    rewrite E. destruct (IH stop) as (cs & Hcs & Hx); [lia|lia|].
    exists (stop :: cs). split; [constructor; auto|]. cbn [pieces].
    destruct (sample_from_vec_cases (firstn (stop - pos) (skipn pos file))) as [(Hu & ->)|(Hu & ->)]; cbn [bind].
    + destruct Hx as [(Hf1 & ->)|(Hf1 & ->)]; cbn [bind]; [left|right]; split; auto.
      intros Ha. inversion Ha; auto.
    + right. split; [|reflexivity]. intros Ha. inversion Ha; auto.
Qed.

Lemma pieces_valid reads file size pos cs : cuts_from reads file size pos cs -> char_boundary file pos ->
  Forall utf8 (pieces file pos cs) <-> Forall (char_boundary file) cs.
Proof.
  unfold char_boundary. induction 1 as [|pos stop cs H1 H2 H3 IH]; intros Hb; cbn [pieces]; [split; constructor|].
  assert (Es : firstn stop file = firstn pos file ++ firstn (stop - pos) (skipn pos file)).
  { rewrite <- (firstn_skipn pos (firstn stop file)), firstn_firstn, Nat.min_l by lia.
    rewrite skipn_firstn_comm. reflexivity. }
  assert (Hiff : utf8 (firstn stop file) <-> utf8 (firstn (stop - pos) (skipn pos file))).
  { rewrite Es. split; [apply utf8_app_inv; exact Hb|apply utf8_app; exact Hb]. }
  split; intros Ha; inversion Ha; subst; constructor; try tauto; apply IH; tauto.
Qed.

(** For every file and every way the reads are split: the samples end exactly
    at the cuts; the iterator panics if and only if some cut (the end of the
    file is the last one) is not between two characters; otherwise the samples
    are the pieces between the cuts, and their concatenation is the file. *)
Theorem C28_file_sampler_panics_iff : forall reads file size fuel,
  0 < size -> (forall pos, read_ok file size pos (reads pos)) -> length file < fuel ->
  exists cuts, cuts_from reads file size 0 cuts /\
    (file_samples fuel reads file size 0 = Panic <-> exists p, In p cuts /\ ~ char_boundary file p) /\
    ((forall p, In p cuts -> char_boundary file p) ->
       file_samples fuel reads file size 0 = Ret (pieces file 0 cuts) /\ concat (pieces file 0 cuts) = file).
Proof.
  intros reads file size fuel Hs Hr Hf.
  destruct (file_samples_exact reads file size Hs Hr fuel 0) as (cs & Hc & Hx); [lia|lia|].
  exists cs. split; [exact Hc|].
  pose proof (pieces_valid _ _ _ _ _ Hc ltac:(constructor)) as Hv.
  assert (Hcat : concat (pieces file 0 cs) = file).
  { assert (G : forall pos l, cuts_from reads file size pos l -> concat (pieces file pos l) = skipn pos file).
    { induction 1 as [|pos stop l H1 H2 H3 IH]; cbn; [rewrite skipn_all; reflexivity|].
      rewrite IH. rewrite <- (firstn_skipn (stop - pos) (skipn pos file)) at 2. rewrite skipn_skipn.
      replace (stop - pos + pos) with stop by lia. reflexivity. }
    rewrite (G _ _ Hc). reflexivity. }
  split.
  - split.
    + intros E. destruct Hx as [(_ & E2)|(Hn & _)]; [congruence|].
      rewrite Hv in Hn. apply Exists_exists. apply neg_Forall_Exists_neg; [|exact Hn].
      intros p. unfold char_boundary. destruct (utf8_valid (firstn p file)) eqn:Ev.
      * left. apply utf8_valid_spec. exact Ev.
      * right. rewrite <- utf8_valid_spec. congruence.
    + intros (p & Hin & Hnb). destruct Hx as [(Hn & _)|(_ & E)]; [exfalso|exact E].
      rewrite Hv, Forall_forall in Hn. auto.
  - intros H. split; [|exact Hcat]. destruct Hx as [(_ & E)|(Hn & _)]; [exact E|exfalso].
    apply Hn, Hv, Forall_forall. exact H.
Qed.

(** The cuts are determined by the file and the reads. *)
Theorem C28_cuts_unique : forall reads file size pos cs1 cs2,
  cuts_from reads file size pos cs1 -> cuts_from reads file size pos cs2 -> cs1 = cs2.
Proof.
  intros reads file size pos cs1 cs2 H. revert cs2.
  induction H as [|pos stop cs H1 H2 H3 IH]; intros cs2 H'; inversion H'; subst; auto; try lia.
  assert (stop0 = stop); [|subst; f_equal; auto].
  unfold read_cut in *.
  destruct H2 as [(A1 & A2 & A3)|(A1 & A2)]; destruct H0 as [(B1 & B2 & B3)|(B1 & B2)].
  - specialize (A3 _ B2). specialize (B3 _ A2). lia.
  - destruct B2 as [B2|B2]; [lia|exfalso; eapply B2; eauto].
  - destruct A2 as [A2|A2]; [lia|exfalso; eapply A2; eauto].
  - lia.
Qed.

(** "a\n\nbcé" read five bytes at a time: the first cut is after the blank line,
    the second window reads "bcé" to the end; no panic.  With four bytes and no
    blank line, "abcé" is cut inside the last character. *)
Example C28_exact_good :
  file_samples 9 (fun pos => Nat.min 5 (7 - pos)) [x61; x0a; x0a; x62; x63; xc3; xa9] 5 0
  = Ret [[x61; x0a; x0a]; [x62; x63; xc3; xa9]].
Proof. reflexivity. Qed.
Example C28_exact_bad :
  file_samples 9 (fun pos => Nat.min 4 (5 - pos)) [x61; x62; x63; xc3; xa9] 4 0 = Panic.
Proof. reflexivity. Qed.
Example C27_exact_bad : exists l,
  memory_samples 9 [x61; x62; x63; xc3; xa9] 4 = Ret l /\ length (concat l) = 9.
Proof. eexists. split; reflexivity. Qed.
