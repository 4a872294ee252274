(** * Properties C26-C31 and C50: samplers. *)
From Verif Require Import Base BaseLemmas Utf8 SamplerModel.

(** ** Specification *)
(** Position [p] directly follows two newlines. *)
Definition after_blank (data : bstr) (p : nat) : Prop :=
  2 <= p /\ nth_error data (p - 1) = Some x0a /\ nth_error data (p - 2) = Some x0a.

(** ** C29 *)
Lemma paragraph_loop_SS data p : paragraph_loop data (S (S p)) =
  (a <- idx data (S p) ;;
   if negb (Byte.eqb a x0a) then paragraph_loop data (S p)
   else b <- idx data p ;;
        if negb (Byte.eqb b x0a) then paragraph_loop data (S p) else Ret (S (S p))).
Proof. reflexivity. Qed.

Lemma paragraph_loop_spec data : forall stop, stop <= length data ->
  exists pos, paragraph_loop data stop = Ret pos /\ pos <= stop /\
    (2 <= pos -> after_blank data pos) /\ (forall p, pos < p <= stop -> ~ after_blank data p).
Proof.
  induction stop as [|stop IH]; intros Hs.
  { exists 0. cbn. repeat split; lia. }
  destruct stop as [|p2].
  { exists 1. cbn. repeat split; lia. }
  destruct IH as (pos & E & Hp & Hb & Hn); [lia|].
  rewrite paragraph_loop_SS.
  destruct (nth_error data (S p2)) as [a|] eqn:Ea; [|apply nth_error_None in Ea; lia].
  destruct (nth_error data p2) as [b|] eqn:Eb; [|apply nth_error_None in Eb; lia].
  unfold idx. rewrite Ea. cbn [unwrap bind].
  destruct (Byte.eqb a x0a) eqn:Ha; cbn [negb].
  - apply byte_eqb_eq in Ha as ->. rewrite Eb. cbn [unwrap bind].
    destruct (Byte.eqb b x0a) eqn:Hbb; cbn [negb].
    + apply byte_eqb_eq in Hbb as ->. exists (S (S p2)). split; [reflexivity|]. split; [lia|].
      split; [|intros p Hq; lia]. intros _. unfold after_blank.
      replace (S (S p2) - 1) with (S p2) by lia. replace (S (S p2) - 2) with p2 by lia. split; [lia|auto].
    + exists pos. split; [exact E|]. split; [lia|]. split; [exact Hb|].
      intros p Hq (H0 & H1 & H2). destruct (Nat.eq_dec p (S (S p2))) as [->|Hne].
      * replace (S (S p2) - 2) with p2 in H2 by lia. rewrite Eb in H2. injection H2 as ->. discriminate.
      * apply (Hn p); [lia|]. unfold after_blank. auto.
  - exists pos. split; [exact E|]. split; [lia|]. split; [exact Hb|].
    intros p Hq (H0 & H1 & H2). destruct (Nat.eq_dec p (S (S p2))) as [->|Hne].
    + replace (S (S p2) - 1) with (S p2) in H1 by lia. rewrite Ea in H1. injection H1 as ->. discriminate.
    + apply (Hn p); [lia|]. unfold after_blank. auto.
Qed.

Theorem C29_paragraph_end : forall data stop, stop <= length data ->
  exists p, find_paragraph_end data stop = Ret p /\
    ((p <= stop /\ after_blank data p /\ forall q, p < q <= stop -> ~ after_blank data q) \/
     (p = stop /\ forall q, q <= stop -> ~ after_blank data q)).
Proof.
  intros data stop Hs. destruct (paragraph_loop_spec data stop Hs) as (pos & E & Hp & Hb & Hn).
  unfold find_paragraph_end. rewrite E. cbn [bind].
  destruct (Nat.ltb_spec pos 2) as [Hlt|Hge]; eexists; (split; [reflexivity|]).
  - right. split; [reflexivity|]. intros q Hq Hx. destruct (Nat.le_gt_cases q pos) as [Hle|Hgt].
    + destruct Hx as (Hx & _). lia.
    + apply (Hn q); [lia|exact Hx].
  - left. auto.
Qed.

Example C29_example :
  find_paragraph_end [x61; x0a; x0a; x62; x0a; x0a; x63; x64] 8 = Ret 6 /\
  find_paragraph_end [x61; x0a; x0a; x62; x0a; x0a; x63; x64] 5 = Ret 3 /\
  find_paragraph_end [x61; x0a; x62; x63] 4 = Ret 4.
Proof. repeat split. Qed.

(** ** C26 *)
(** [chunked data chunk pos l]: [l] is the list of slices the documentation
    asks for when [pos] bytes have been handed out: consecutive non-empty slices
    of at most [chunk] bytes; the last one ends the data; any other ends after
    the last blank line of its window if the window has one, and fills the
    window otherwise. *)
Definition good_cut (data : bstr) (chunk start stop : nat) : Prop :=
  start < stop <= length data /\ stop <= start + chunk /\
  (length data <= start + chunk -> stop = length data) /\
  (start + chunk < length data ->
     (exists p, start < p <= start + chunk /\ after_blank data p) ->
     after_blank data stop /\ forall p, stop < p <= start + chunk -> ~ after_blank data p) /\
  (start + chunk < length data ->
     (forall p, start < p <= start + chunk -> ~ after_blank data p) -> stop = start + chunk).

Inductive chunked (data : bstr) (chunk : nat) : nat -> list bstr -> Prop :=
| chunked_end : chunked data chunk (length data) []
| chunked_next start stop s rest :
    good_cut data chunk start stop -> s = firstn (stop - start) (skipn start data) ->
    chunked data chunk stop rest -> chunked data chunk start (s :: rest).

Lemma slice_ret {A} (v : list A) a b : a <= b -> b <= length v ->
  slice v a b = Ret (firstn (b - a) (skipn a v)).
Proof.
  intros H1 H2. unfold slice. rewrite (proj2 (Nat.leb_le _ _) H1), (proj2 (Nat.leb_le _ _) H2). reflexivity.
Qed.

Lemma memory_next_spec data chunk pos : 0 < chunk -> pos < length data ->
  exists stop, memory_next data chunk pos = Ret (Some (firstn (stop - pos) (skipn pos data), stop)) /\
    good_cut data chunk pos stop.
Proof.
  intros Hc Hp. unfold memory_next. rewrite (proj2 (Nat.ltb_lt _ _) Hp).
  set (pos1 := Nat.min (pos + chunk) (length data)).
  assert (H1 : pos < pos1 <= length data) by (unfold pos1; lia).
  destruct (C29_paragraph_end data pos1) as (p & E & Hpar); [lia|]. rewrite E. cbn [bind].
  destruct (Nat.ltb_spec pos1 (length data)) as [Hl|Hl]; cbn [andb].
  - assert (Ep : pos1 = pos + chunk) by (unfold pos1 in *; lia).
    destruct (Nat.ltb_spec pos p) as [Hpp|Hpp].
    + exists p. assert (p <= pos1) by (destruct Hpar as [(?&_)|(?&_)]; lia).
      rewrite slice_ret by lia. split; [reflexivity|]. unfold good_cut.
      split; [lia|]. split; [lia|]. split; [lia|]. rewrite <- Ep. split.
      * intros _ (q & Hq & Hbl). destruct Hpar as [(_ & Hb & Hn)|(_ & Hn)]; [auto|].
        exfalso. apply (Hn q); [lia|exact Hbl].
      * intros _ Hno. destruct Hpar as [(Hle & Hb & Hn)|(-> & _)]; [|reflexivity].
        exfalso. apply (Hno p); [lia|exact Hb].
    + exists pos1. rewrite slice_ret by lia. split; [reflexivity|]. unfold good_cut.
      split; [lia|]. split; [lia|]. split; [lia|]. rewrite <- Ep. split; [|reflexivity].
      intros _ (q & Hq & Hbl). exfalso. destruct Hpar as [(_ & Hb & Hn)|(_ & Hn)]; apply (Hn q); auto; lia.
  - exists pos1. rewrite slice_ret by lia. split; [reflexivity|]. unfold good_cut.
    unfold pos1 in *. repeat split; try lia.
Qed.

Lemma memory_slices_spec data chunk : 0 < chunk -> forall fuel pos, pos <= length data ->
  length data - pos < fuel ->
  exists l, memory_slices fuel data chunk pos = Ret l /\ chunked data chunk pos l.
Proof.
  intros Hc. induction fuel as [|f IH]; intros pos Hp Hf; [lia|]. cbn [memory_slices].
  destruct (Nat.eq_dec pos (length data)) as [->|Hne].
  - unfold memory_next. rewrite (proj2 (Nat.ltb_ge _ _)) by lia. cbn.
    exists []. split; [reflexivity|constructor].
  - destruct (memory_next_spec data chunk pos Hc) as (stop & E & G); [lia|]. rewrite E. cbn [bind].
    pose proof G as (G1 & _). destruct (IH stop) as (l & -> & C); [lia|lia|]. cbn [bind].
    eexists. split; [reflexivity|]. econstructor; eauto.
Qed.

Theorem C26_memory_sampler_slices : forall data chunk fuel,
  0 < chunk -> length data < fuel ->
  exists l, memory_slices fuel data chunk 0 = Ret l /\ chunked data chunk 0 l.
Proof. intros data chunk fuel Hc Hf. apply memory_slices_spec; lia. Qed.

Lemma chunked_inv data chunk pos l : chunked data chunk pos l ->
  (pos = length data /\ l = []) \/
  (exists stop rest, good_cut data chunk pos stop /\
     l = firstn (stop - pos) (skipn pos data) :: rest /\ chunked data chunk stop rest).
Proof. intros H. destruct H as [|start stop s rest G -> C]; [left; auto|right; eauto]. Qed.

Lemma chunked_concat data chunk pos l : chunked data chunk pos l -> concat l = skipn pos data.
Proof.
  induction 1 as [|start stop s rest G -> _ IH]; cbn; [rewrite skipn_all; reflexivity|].
  rewrite IH. destruct G as (G & _).
  rewrite <- (firstn_skipn (stop - start) (skipn start data)) at 2. f_equal.
  rewrite skipn_skipn. f_equal. lia.
Qed.

Lemma chunked_sizes data chunk pos l : chunked data chunk pos l ->
  Forall (fun s => 1 <= length s <= chunk) l.
Proof.
  induction 1 as [|start stop s rest G -> _ IH]; constructor; [|exact IH].
  destruct G as (G1 & G2 & _). rewrite firstn_length, skipn_length. lia.
Qed.

Theorem C26_memory_sampler_covers_data : forall data chunk fuel l,
  0 < chunk -> memory_slices fuel data chunk 0 = Ret l ->
  concat l = data /\ (forall s, In s l -> s <> [] /\ length s <= chunk) /\
  forall fuel', length data < fuel' -> memory_slices fuel' data chunk 0 = Ret l.
Proof.
  intros data chunk fuel l Hc H.
  assert (M : forall f pos r, memory_slices f data chunk pos = Ret r ->
     forall f', f <= f' -> memory_slices f' data chunk pos = Ret r).
  { induction f as [|f IH]; intros pos r E f' Hf; [discriminate|].
    destruct f' as [|f']; [lia|]. cbn [memory_slices] in *.
    apply bind_ret in E as (x & Ex & E). rewrite Ex. cbn [bind]. destruct x as [[s p]|]; [|exact E].
    apply bind_ret in E as (y & Ey & E). rewrite (IH p y Ey f') by lia. exact E. }
  assert (U : forall fuel', length data < fuel' -> memory_slices fuel' data chunk 0 = Ret l).
  { intros fuel' Hf. destruct (C26_memory_sampler_slices data chunk fuel' Hc Hf) as (l' & E & _).
    pose proof (M _ _ _ E (Nat.max fuel fuel')) as E1. pose proof (M _ _ _ H (Nat.max fuel fuel')) as E2.
    rewrite E1 in E2 by lia. rewrite E. f_equal. symmetry. specialize (E2 ltac:(lia)). congruence. }
  destruct (C26_memory_sampler_slices data chunk (S (length data)) Hc) as (l' & E & C); [lia|].
  rewrite (U (S (length data))) in E by lia. injection E as <-.
  split; [|split; [|exact U]].
  - rewrite (chunked_concat _ _ _ _ C). reflexivity.
  - intros s Hs. pose proof (chunked_sizes _ _ _ _ C) as F. rewrite Forall_forall in F.
    specialize (F s Hs). split; [intros ->; cbn in F; lia|lia].
Qed.

(** Outside the hypothesis: with chunk size 0 the iterator never ends. *)
Theorem C26_chunk_zero_never_ends : forall data fuel, data <> [] ->
  memory_slices fuel data 0 0 = OutOfFuel.
Proof.
  intros data fuel Hd. induction fuel as [|f IH]; [reflexivity|]. cbn [memory_slices].
  assert (Hl : 0 < length data) by (destruct data; [congruence|cbn; lia]).
  unfold memory_next. rewrite (proj2 (Nat.ltb_lt _ _) Hl).
  replace (Nat.min (0 + 0) (length data)) with 0 by lia.
  unfold find_paragraph_end. cbn [paragraph_loop bind Nat.ltb Nat.leb].
  rewrite andb_false_r. rewrite slice_ret by lia. cbn [bind]. rewrite IH. reflexivity.
Qed.

Example C26_example :
  memory_slices 20 [x61; x0a; x0a; x62; x63; x0a; x0a; x64; x65; x66; x67; x68] 5 0
  = Ret [[x61; x0a; x0a]; [x62; x63; x0a; x0a]; [x64; x65; x66; x67; x68]].
Proof. reflexivity. Qed.

(** ** C27 *)
Lemma utf8_cut_blank data p : utf8 data -> after_blank data p ->
  utf8 (firstn p data) /\ utf8 (skipn p data).
Proof.
  intros H (Hp & H1 & _).
  apply nth_error_split in H1 as (a & b & E & Hl). rewrite E in H.
  apply utf8_cut_after in H as (Ha & Hb); [|cbn; lia].
  assert (E2 : data = (a ++ [x0a]) ++ b) by (rewrite E, <- app_assoc; reflexivity).
  assert (El : p = length (a ++ [x0a])) by (rewrite app_length; cbn; lia).
  rewrite E2, El, firstn_length_app, skipn_length_app. auto.
Qed.

(** A position at which valid text can be cut: whole characters before it. *)
Definition char_boundary (data : bstr) (p : nat) : Prop := utf8 (firstn p data).

Lemma utf8_slice data a b : utf8 data -> a <= b -> char_boundary data a -> char_boundary data b ->
  utf8 (firstn (b - a) (skipn a data)).
Proof.
  intros H Hab Ha Hb. unfold char_boundary in *.
  rewrite <- (firstn_skipn a (firstn b data)) in Hb.
  rewrite firstn_firstn, Nat.min_l in Hb by exact Hab.
  apply utf8_app_inv in Hb; [|exact Ha]. rewrite skipn_firstn_comm in Hb. exact Hb.
Qed.

Lemma blank_dec data a b : b <= length data ->
  (exists p, a < p <= b /\ after_blank data p) \/ (forall p, a < p <= b -> ~ after_blank data p).
Proof.
  intros Hb. destruct (paragraph_loop_spec data b Hb) as (pos & _ & Hp & Hbl & Hn).
  destruct (Nat.le_gt_cases 2 pos) as [H2|H2]; [destruct (Nat.le_gt_cases pos a) as [Ha|Ha]|].
  - right. intros p Hq. apply Hn. lia.
  - left. exists pos. split; [lia|auto].
  - right. intros p Hq Hx. destruct (Nat.le_gt_cases p pos) as [Hle|Hgt].
    + destruct Hx. lia.
    + apply (Hn p); [lia|exact Hx].
Qed.

Lemma chunked_valid data chunk pos l : utf8 data -> char_boundary data pos ->
  (forall start, start + chunk < length data ->
     (exists p, start < p <= start + chunk /\ after_blank data p) \/ char_boundary data (start + chunk)) ->
  chunked data chunk pos l -> Forall utf8 l.
Proof.
  intros Hu Hpos Hw H. induction H as [|start stop s rest G -> C IH]; [constructor|].
  assert (Hb : char_boundary data stop).
  { destruct G as (G1 & G2 & G3 & G4 & G5).
    destruct (Nat.le_gt_cases (length data) (start + chunk)) as [Hle|Hgt].
    - rewrite (G3 Hle). unfold char_boundary. rewrite firstn_all. exact Hu.
    - destruct (blank_dec data start (start + chunk)) as [Hbl|Hno]; [lia| |].
      + destruct (G4 Hgt Hbl) as (G & _). apply (utf8_cut_blank data stop Hu G).
      + rewrite (G5 Hgt Hno). destruct (Hw start Hgt) as [(q & Hq & Hbl)|Hbd]; [|exact Hbd].
        exfalso. exact (Hno q Hq Hbl). }
  constructor; [|apply IH; exact Hb]. destruct G as (G1 & _). apply utf8_slice; auto. lia.
Qed.

Lemma map_lossy_valid l : Forall utf8 l -> map utf8_lossy l = l.
Proof. induction 1 as [|x l Hx _ IH]; cbn; [reflexivity|]. rewrite utf8_lossy_valid, IH by exact Hx. reflexivity. Qed.

(** Holds when each window that does not reach the end of the data has a blank
    line or ends between two characters (missing: other windows). *)
Theorem C27_samples_keep_text_partial : forall data chunk fuel, utf8 data -> 0 < chunk ->
  length data < fuel ->
  (forall start, start + chunk < length data ->
     (exists p, start < p <= start + chunk /\ after_blank data p) \/ char_boundary data (start + chunk)) ->
  exists l, memory_slices fuel data chunk 0 = Ret l /\ memory_samples fuel data chunk = Ret l /\
            concat l = data.
Proof.
  intros data chunk fuel Hu Hc Hf Hw.
  destruct (C26_memory_sampler_slices data chunk fuel Hc Hf) as (l & E & C).
  exists l. split; [exact E|]. split.
  - unfold memory_samples. rewrite E. cbn. f_equal. apply map_lossy_valid.
    apply (chunked_valid data chunk 0 l Hu); auto. constructor.
  - rewrite (chunked_concat _ _ _ _ C). reflexivity.
Qed.

(** In particular for data of one chunk and for ASCII data. *)
Theorem C27_single_chunk_or_ascii : forall data chunk fuel, 0 < chunk -> length data < fuel ->
  (utf8 data /\ length data <= chunk) \/ Forall (fun b => b2n b < 128) data ->
  exists l, memory_samples fuel data chunk = Ret l /\ concat l = data.
Proof.
  intros data chunk fuel Hc Hf H.
  assert (Hu : utf8 data) by (destruct H as [(H & _)|H]; [exact H|apply utf8_ascii; exact H]).
  destruct (C27_samples_keep_text_partial data chunk fuel Hu Hc Hf) as (l & _ & E & C); [|eauto].
  intros start Hs. right. destruct H as [(_ & H)|H]; [lia|].
  apply utf8_ascii. rewrite <- (firstn_skipn (start + chunk) data) in H. apply Forall_app in H. apply H.
Qed.

(** The full property fails: for every chunk size there is valid UTF-8 data
    whose samples are not the data. *)
Theorem C27_samples_keep_text_refuted : forall chunk, 0 < chunk ->
  exists data fuel l, utf8 data /\ memory_samples fuel data chunk = Ret l /\ concat l <> data.
Proof.
  intros chunk Hc. set (a := repeat x61 (chunk - 1)).
  set (data := a ++ [xc3; xa9]).
  assert (Ha : utf8 a).
  { apply utf8_ascii, Forall_forall. intros b Hb. apply repeat_spec in Hb as ->. cbn. lia. }
  assert (La : length a = chunk - 1) by apply repeat_length.
  assert (Ld : length data = chunk + 1) by (unfold data; rewrite app_length, La; cbn; lia).
  assert (Hu : utf8 data).
  { apply utf8_app; [exact Ha|]. apply (utf8_cons [xc3; xa9] []); [apply uc2; cbn; lia|constructor]. }
  destruct (C26_memory_sampler_slices data chunk (S (length data)) Hc) as (l & E & C); [lia|].
  exists data, (S (length data)), (map utf8_lossy l).
  split; [exact Hu|]. split; [unfold memory_samples; rewrite E; reflexivity|].
  assert (Hnb : forall p, ~ after_blank data p).
  { intros p (_ & H & _). apply nth_error_In in H. unfold data in H. apply in_app_iff in H as [H|H].
    - apply repeat_spec in H. discriminate.
    - cbn in H. intuition discriminate. }
  destruct (chunked_inv _ _ _ _ C) as [(E0 & _)|(stop & rest & G & -> & C')]; [lia|].
  destruct G as (G1 & G2 & G3 & G4 & G5).
  assert (Es : stop = chunk) by (rewrite (G5 ltac:(lia) ltac:(auto)); lia). subst stop.
  destruct (chunked_inv _ _ _ _ C') as [(E0 & _)|(stop & rest' & G & -> & C2)]; [lia|].
  destruct G as (H1 & H2 & H3 & H4 & H5).
  assert (Es : stop = length data) by (apply H3; lia). subst stop.
  destruct (chunked_inv _ _ _ _ C2) as [(_ & ->)|(stop & rest'' & G & _ & _)]; [|destruct G; lia].
  cbn [map concat]. intros Heq. apply (f_equal (@length _)) in Heq.
  rewrite !app_length in Heq. rewrite Nat.sub_0_r in Heq. cbn [skipn] in Heq.
  assert (F : firstn chunk data = a ++ [xc3]).
  { replace chunk with (length (a ++ [xc3])) by (rewrite app_length, La; cbn; lia).
    unfold data. change [xc3; xa9] with ([xc3] ++ [xa9]). rewrite app_assoc. apply firstn_length_app. }
  assert (F2 : skipn chunk data = [xa9]).
  { replace chunk with (length (a ++ [xc3])) by (rewrite app_length, La; cbn; lia).
    unfold data. change [xc3; xa9] with ([xc3] ++ [xa9]). rewrite app_assoc. apply skipn_length_app. }
  rewrite F, F2, utf8_lossy_app in Heq by exact Ha.
  rewrite app_length, Ld in Heq. replace (chunk + 1 - chunk) with 1 in Heq by lia.
  cbn in Heq. lia.
Qed.

(** ** C28 *)
Lemma sample_from_vec_ret v s : sample_from_vec v = Ret s <-> s = v /\ utf8 v.
Proof.
  unfold sample_from_vec. rewrite <- utf8_valid_spec. destruct (utf8_valid v); cbn; split.
  - intros E; injection E as <-; auto.
  - intros (-> & _); reflexivity.
  - discriminate.
  - intros (_ & H); discriminate.
Qed.
Lemma sample_from_vec_cases v : (utf8 v /\ sample_from_vec v = Ret v) \/ (~ utf8 v /\ sample_from_vec v = Panic).
Proof.
  unfold sample_from_vec. destruct (utf8_valid v) eqn:E; [left|right]; (split; [|reflexivity]).
  - apply utf8_valid_spec; exact E.
  - rewrite <- utf8_valid_spec. congruence.
Qed.

Lemma nth_error_firstn' {A} (l : list A) k n : k < n -> nth_error (firstn n l) k = nth_error l k.
Proof. revert k n; induction l as [|x l IH]; intros [|k] [|n] H; cbn; auto; try lia. apply IH. lia. Qed.
Lemma nth_error_skipn' {A} (l : list A) n k : nth_error (skipn n l) k = nth_error l (n + k).
Proof. revert l; induction n as [|n IH]; intros [|x l]; cbn; auto. destruct k; reflexivity. Qed.

(** A read of [got > 0] bytes at [pos] leads to a sample that ends at [stop]. *)
Lemma file_next_spec file size pos got : pos <= length file -> read_ok file size pos got -> 0 < got ->
  exists stop, pos < stop <= pos + got /\ stop <= length file /\
    (stop <> pos + got -> after_blank file stop) /\
    ((exists p, pos + 2 <= p <= pos + got /\ after_blank file p /\ got = size) -> after_blank file stop) /\
    (file_next file size pos got = (s <- sample_from_vec (firstn (stop - pos) (skipn pos file)) ;;
                                    Ret (Some (s, stop)))).
Proof.
  intros Hp (Hr & _) Hg. unfold file_next. rewrite (proj2 (Nat.eqb_neq _ _)) by lia.
  set (buffer := firstn got (skipn pos file)).
  assert (Lb : length buffer = got) by (unfold buffer; rewrite firstn_length, skipn_length; lia).
  assert (Hn : forall k, k < got -> nth_error buffer k = nth_error file (pos + k)).
  { intros k Hk. unfold buffer. rewrite nth_error_firstn' by exact Hk. rewrite nth_error_skipn'. reflexivity. }
  assert (Hab : forall p, p <= got -> after_blank buffer p <-> 2 <= p /\ after_blank file (pos + p)).
  { intros p Hpg. unfold after_blank. split.
    - intros (H2 & H3 & H4). rewrite Hn in H3, H4 by lia.
      replace (pos + p - 1) with (pos + (p - 1)) by lia. replace (pos + p - 2) with (pos + (p - 2)) by lia.
      repeat split; auto; lia.
    - intros (H1 & H2 & H3 & H4). rewrite !Hn by lia.
      replace (pos + p - 1) with (pos + (p - 1)) in H3 by lia. replace (pos + p - 2) with (pos + (p - 2)) in H4 by lia.
      auto. }
  destruct (Nat.ltb_spec got size) as [Hlt|Hge].
  - exists (pos + got). split; [lia|]. split; [lia|]. split; [lia|]. split.
    + intros (p & _ & _ & E). lia.
    + replace (pos + got - pos) with got by lia. reflexivity.
  - destruct (C29_paragraph_end buffer got) as (stop & E & Hs); [lia|]. rewrite E. cbn [bind].
    assert (Hsg : stop <= got /\ 0 < stop).
    { destruct Hs as [(H1 & H2 & _)|(-> & _)]; [destruct H2|]; lia. }
    exists (pos + stop). split; [lia|]. split; [lia|].
    assert (Hblank : stop <> got -> after_blank file (pos + stop)).
    { intros Hne. destruct Hs as [(H1 & H2 & _)|(H1 & _)]; [|congruence]. apply Hab in H2; [apply H2|lia]. }
    split; [intros Hne; apply Hblank; lia|]. split.
    + intros (p & Hp2 & Hbl & _). destruct (Nat.eq_dec stop got) as [->|Hne]; [|auto].
      destruct Hs as [(H1 & H2 & _)|(_ & H2)]; [apply Hab in H2; [apply H2|lia]|].
      exfalso. apply (H2 (p - pos)); [lia|]. apply Hab; [lia|].
      replace (pos + (p - pos)) with p by lia. split; [lia|exact Hbl].
    + replace (pos + stop - pos) with stop by lia.
      destruct (Nat.ltb_spec stop got) as [Hlt2|Hge2].
      * replace (firstn stop buffer) with (firstn stop (skipn pos file)).
        2:{ unfold buffer. rewrite firstn_firstn, Nat.min_l by lia. reflexivity. }
        replace (pos + got - (got - stop)) with (pos + stop) by lia. reflexivity.
      * assert (stop = got) by lia. subst stop. reflexivity.
Qed.

Lemma file_next_eof file size pos got : read_ok file size pos got -> got = 0 ->
  file_next file size pos got = Ret None /\ Nat.min size (length file - pos) = 0.
Proof. intros (_ & H) ->. split; [reflexivity|auto]. Qed.

Lemma file_samples_spec reads file size : 0 < size ->
  (forall pos, read_ok file size pos (reads pos)) ->
  forall fuel pos, pos <= length file -> length file - pos < fuel ->
    file_samples fuel reads file size pos = Panic \/
    exists l, file_samples fuel reads file size pos = Ret l /\ concat l = skipn pos file /\ Forall (fun s => s <> [] /\ utf8 s) l.
Proof.
  intros Hsz Hr. induction fuel as [|f IH]; intros pos Hp Hf; [lia|]. cbn [file_samples].
  destruct (Nat.eq_dec (reads pos) 0) as [E0|E0].
  - destruct (file_next_eof file size pos (reads pos) (Hr pos) E0) as (E & Hmin). rewrite E. cbn.
    right. exists []. assert (pos = length file) by lia. subst pos. rewrite skipn_all. auto.
  - destruct (file_next_spec file size pos (reads pos) Hp (Hr pos)) as (stop & H1 & H2 & _ & _ & E); [lia|].
    rewrite E. destruct (sample_from_vec_cases (firstn (stop - pos) (skipn pos file))) as [(Hu & ->)|(_ & ->)];
      [|left; reflexivity]. cbn [bind].
    destruct (IH stop) as [->|(l & -> & C & F)]; [lia|lia|left; reflexivity|right]. cbn [bind].
    eexists. split; [reflexivity|]. split.
    + cbn [concat]. rewrite C.
      rewrite <- (firstn_skipn (stop - pos) (skipn pos file)) at 2. rewrite skipn_skipn.
      replace (stop - pos + pos) with stop by lia. reflexivity.
    + constructor; [|exact F]. split; [|exact Hu].
      intros En. apply (f_equal (@length _)) in En. rewrite firstn_length, skipn_length in En. cbn in En. lia.
Qed.

(** For every way the reads are split: the iterator ends, possibly by a panic;
    if it does not panic, the samples are exactly the file, cut into non-empty
    pieces. *)
Theorem C28_file_read_exactly_once : forall reads file size fuel,
  0 < size -> (forall pos, read_ok file size pos (reads pos)) -> length file < fuel ->
  file_samples fuel reads file size 0 = Panic \/
  exists l, file_samples fuel reads file size 0 = Ret l /\ concat l = file /\ ~ In [] l.
Proof.
  intros reads file size fuel Hs Hr Hf.
  destruct (file_samples_spec reads file size Hs Hr fuel 0) as [H|(l & E & C & F)]; [lia|lia|auto|].
  right. exists l. split; [exact E|]. split; [exact C|]. intros Hin. rewrite Forall_forall in F.
  destruct (F _ Hin). congruence.
Qed.

(** No panic when every place a read can end in is between two characters, or
    the window has a blank line to cut at (missing: other windows). *)
Theorem C28_file_sampler_partial : forall reads file size fuel,
  utf8 file -> 0 < size -> (forall pos, read_ok file size pos (reads pos)) -> length file < fuel ->
  (forall pos, pos + reads pos <= length file -> char_boundary file (pos + reads pos) \/
     (reads pos = size /\ exists p, pos + 2 <= p <= pos + size /\ after_blank file p)) ->
  exists l, file_samples fuel reads file size 0 = Ret l /\ concat l = file /\ ~ In [] l.
Proof.
  intros reads file size fuel Hu Hs Hr Hf Hw.
  destruct (C28_file_read_exactly_once reads file size fuel Hs Hr Hf) as [H|H]; [exfalso|exact H].
  assert (G : forall f pos, pos <= length file -> length file - pos < f -> char_boundary file pos ->
              file_samples f reads file size pos <> Panic).
  { clear H Hf fuel. induction f as [|f IH]; intros pos Hp Hf Hb; [lia|]. cbn [file_samples].
    destruct (Nat.eq_dec (reads pos) 0) as [E0|E0].
    - destruct (file_next_eof file size pos (reads pos) (Hr pos) E0) as (E & _). rewrite E. discriminate.
    - destruct (file_next_spec file size pos (reads pos) Hp (Hr pos)) as (stop & H1 & H2 & H3 & H4 & E); [lia|].
      assert (Hbs : char_boundary file stop).
      { destruct (Nat.eq_dec stop (pos + reads pos)) as [->|Hne].
        - destruct (Hw pos) as [Hx|(Er & p & Hpp & Hbl)]; [lia|exact Hx|].
          apply utf8_cut_blank; [exact Hu|]. apply H4. exists p. rewrite Er. auto.
        - apply utf8_cut_blank; auto. }
      rewrite E. rewrite (proj2 (sample_from_vec_ret _ _) (conj eq_refl (utf8_slice file pos stop Hu ltac:(lia) Hb Hbs))).
      cbn [bind]. specialize (IH stop ltac:(lia) ltac:(lia) Hbs).
      destruct (file_samples f reads file size stop); cbn; congruence. }
  apply (G fuel 0); [lia|lia|constructor|exact H].
Qed.

(** ASCII files are always read completely, whatever the reads return. *)
Theorem C28_ascii_file : forall reads file size fuel,
  Forall (fun b => b2n b < 128) file -> 0 < size ->
  (forall pos, read_ok file size pos (reads pos)) -> length file < fuel ->
  exists l, file_samples fuel reads file size 0 = Ret l /\ concat l = file /\ ~ In [] l.
Proof.
  intros reads file size fuel Ha Hs Hr Hf. apply C28_file_sampler_partial; auto.
  - apply utf8_ascii; exact Ha.
  - intros pos _. left. apply utf8_ascii.
    rewrite <- (firstn_skipn (pos + reads pos) file) in Ha. apply Forall_app in Ha. apply Ha.
Qed.

(** The full property fails: for every sample size some valid UTF-8 file makes
    the iterator panic, even if every read is as long as possible. *)
Theorem C28_file_sampler_refuted : forall size, 0 < size ->
  exists file reads, utf8 file /\ (forall pos, read_ok file size pos (reads pos)) /\
    forall fuel, length file < fuel -> file_samples fuel reads file size 0 = Panic.
Proof.
  intros size Hs. set (a := repeat x61 (size - 1)).
  set (file := a ++ [xc3; xa9]).
  assert (Ha : utf8 a).
  { apply utf8_ascii, Forall_forall. intros b Hb. apply repeat_spec in Hb as ->. cbn. lia. }
  assert (La : length a = size - 1) by apply repeat_length.
  assert (Ld : length file = size + 1) by (unfold file; rewrite app_length, La; cbn; lia).
  assert (Hu : utf8 file).
  { apply utf8_app; [exact Ha|]. apply (utf8_cons [xc3; xa9] []); [apply uc2; cbn; lia|constructor]. }
  assert (Hnb : forall p, ~ after_blank file p).
  { intros p (_ & H & _). apply nth_error_In in H. unfold file in H. apply in_app_iff in H as [H|H].
    - apply repeat_spec in H. discriminate.
    - cbn in H. intuition discriminate. }
  assert (F : firstn size file = a ++ [xc3]).
  { replace size with (length (a ++ [xc3])) by (rewrite app_length, La; cbn; lia).
    unfold file. change [xc3; xa9] with ([xc3] ++ [xa9]). rewrite app_assoc. apply firstn_length_app. }
  exists file, (fun pos => Nat.min size (length file - pos)). split; [exact Hu|].
  assert (Hr : forall pos, read_ok file size pos (Nat.min size (length file - pos))) by (split; auto).
  split; [exact Hr|]. intros fuel Hf. destruct fuel as [|f]; [lia|]. cbn [file_samples].
  destruct (file_next_spec file size 0 (Nat.min size (length file - 0)) ltac:(lia) (Hr 0)) as (stop & H1 & H2 & H3 & _ & E); [lia|].
  rewrite E. assert (stop = size).
  { destruct (Nat.eq_dec stop size); [assumption|]. exfalso. apply (Hnb stop). apply H3. lia. }
  subst stop. rewrite Nat.sub_0_r. cbn [skipn]. rewrite F.
  destruct (sample_from_vec_cases (a ++ [xc3])) as [(Hx & _)|(_ & ->)]; [|reflexivity].
  exfalso. apply utf8_app_inv in Hx; [|exact Ha]. apply utf8_bytes_single in Hx. cbn in Hx. lia.
Qed.

Example C28_example :
  file_samples 9 (fun pos => Nat.min 5 (8 - pos)) [x61; x0a; x0a; x62; x63; xc3; xa9; x64] 5 0
  = Ret [[x61; x0a; x0a]; [x62; x63; xc3; xa9; x64]].
Proof. reflexivity. Qed.

(** ** C30 *)
Definition starts_char (b : byte) : Prop := b2n b < 128 \/ 192 <= b2n b.

Lemma is_char_start_spec b : is_char_start b = true <-> starts_char b.
Proof. unfold is_char_start, starts_char. rewrite orb_true_iff, Nat.ltb_lt, Nat.leb_le. reflexivity. Qed.
Lemma is_char_start_false b : is_char_start b = false <-> ~ starts_char b.
Proof. rewrite <- is_char_start_spec. destruct (is_char_start b); split; congruence. Qed.

Lemma skip_cont_spec w : exists pre rest, w = pre ++ rest /\ skip_cont w = length pre /\
  Forall (fun b => ~ starts_char b) pre /\ (rest = [] \/ exists b r, rest = b :: r /\ starts_char b).
Proof.
  induction w as [|b w (pre & rest & -> & E & F & H)].
  - exists [], []. repeat split; auto.
  - cbn [skip_cont]. destruct (is_char_start b) eqn:Eb.
    + exists [], (b :: pre ++ rest). repeat split; auto. right. exists b, (pre ++ rest).
      split; [reflexivity|apply is_char_start_spec; exact Eb].
    + exists (b :: pre), rest. cbn. rewrite E. repeat split; auto. constructor; [|exact F].
      apply is_char_start_false; exact Eb.
Qed.

Lemma back_to_start_spec w start : forall stop, stop < length w ->
  exists k, back_to_start w start stop = Ret k /\ k <= stop /\
    (forall j b, k < j <= stop -> nth_error w j = Some b -> ~ starts_char b) /\
    (start <= stop -> start <= k) /\
    (start < k -> exists b, nth_error w k = Some b /\ starts_char b).
Proof.
  induction stop as [|stop IH]; intros Hs; cbn [back_to_start].
  - exists 0. repeat split; lia.
  - destruct (Nat.ltb_spec start (S stop)) as [Hlt|Hge].
    + destruct (nth_error w (S stop)) as [b|] eqn:E; [|apply nth_error_None in E; lia].
      unfold idx. rewrite E. cbn [unwrap bind]. destruct (is_char_start b) eqn:Eb; cbn [negb].
      * exists (S stop). repeat split; try lia.
        intros _. exists b. split; [exact E|apply is_char_start_spec; exact Eb].
      * destruct IH as (k & E2 & Hk & Hn & Hst & Hc); [lia|]. exists k. split; [exact E2|].
        split; [lia|]. split; [|split; [intros _; apply Hst; lia|exact Hc]].
        intros j b' Hj Ej. destruct (Nat.eq_dec j (S stop)) as [->|Hne].
        -- rewrite E in Ej. injection Ej as <-. apply is_char_start_false; exact Eb.
        -- apply (Hn j b'); [lia|exact Ej].
    + exists (S stop). repeat split; lia.
Qed.

(** Between a valid text's bytes, the place before a character start is a boundary. *)
Lemma utf8_cut_before x y : utf8 (x ++ y) -> (y = [] \/ exists b r, y = b :: r /\ starts_char b) -> utf8 x.
Proof.
  intros H Hy. remember (x ++ y) as w eqn:Ew. revert x Ew.
  induction H as [|c r Hc Hr IH]; intros x Ew.
  - destruct x; [constructor|discriminate].
  - destruct (Nat.le_gt_cases (length c) (length x)) as [Hle|Hgt].
    + assert (E : x = c ++ skipn (length c) x).
      { apply (f_equal (firstn (length c))) in Ew. rewrite firstn_length_app, firstn_app in Ew.
        replace (length c - length x) with 0 in Ew by lia. rewrite firstn_O, app_nil_r in Ew.
        rewrite Ew at 1. symmetry. apply firstn_skipn. }
      rewrite E. constructor; [exact Hc|]. apply IH. rewrite E, <- app_assoc in Ew.
      apply app_inv_head in Ew. exact Ew.
    + destruct x as [|b0 x]; [constructor|exfalso].
      assert (E : c = (b0 :: x) ++ firstn (length c - length (b0 :: x)) y).
      { apply (f_equal (firstn (length c))) in Ew. rewrite firstn_length_app, firstn_app in Ew.
        rewrite firstn_all2 in Ew by lia. exact Ew. }
      assert (Hd : length c - length (b0 :: x) <> 0) by lia.
      destruct (length c - length (b0 :: x)) as [|d]; [congruence|].
      destruct Hy as [->|(b & r' & -> & Hb)].
      * rewrite firstn_nil, app_nil_r in E. subst c. cbn in Hgt. lia.
      * cbn [firstn app] in E.
        assert (Hin : forall q, In q (tl c) -> ~ starts_char q).
        { unfold starts_char. destruct Hc; cbn; intros q Hq;
            repeat match goal with H : _ \/ _ |- _ => destruct H as [<-|H] end; try contradiction; lia. }
        apply (Hin b); [|exact Hb]. rewrite E. cbn. apply in_or_app. right. left. reflexivity.
Qed.

(** When it panics: exactly on windows without any character start. *)
Theorem C30_trim_panics_iff : forall w,
  (exists r, extract_valid_utf8_slice w = Ret r) <-> exists b, In b w /\ starts_char b.
Proof.
  intros w. unfold extract_valid_utf8_slice.
  destruct (skip_cont_spec w) as (pre & rest & Ew & Es & Hpre & Hrest). rewrite Es.
  destruct w as [|b0 w0] eqn:Hw.
  { cbn. split; [intros (r & H); discriminate|intros (b & [] & _)]. }
  rewrite <- Hw in *. assert (Hl : 0 < length w) by (rewrite Hw; cbn; lia). clear Hw b0 w0.
  rewrite checked_sub_le by lia. cbn [bind].
  destruct (nth_error w (length w - 1)) as [b|] eqn:Eb; [|apply nth_error_None in Eb; lia].
  unfold idx. rewrite Eb. cbn [unwrap bind].
  assert (Lw : length w = length pre + length rest) by (rewrite Ew, app_length; reflexivity).
  destruct (Nat.leb_spec 128 (b2n b)) as [H8|H8].
  - destruct (back_to_start_spec w (length pre) (length w - 1)) as (k & E & Hk & Hn & Hst & Hc); [lia|].
    rewrite E. cbn [bind]. destruct Hrest as [->|(b1 & r1 & -> & Hb1)].
    + split; [|].
      * intros (r & H). unfold slice in H. cbn in Lw.
        rewrite (proj2 (Nat.leb_gt (length pre) k)) in H by lia. discriminate.
      * intros (q & Hq & Hs). rewrite app_nil_r in Ew. subst w. rewrite Forall_forall in Hpre.
        exfalso. exact (Hpre q Hq Hs).
    + split; [intros _|intros _].
      * exists b1. split; [|exact Hb1]. rewrite Ew. apply in_or_app; right; left; reflexivity.
      * cbn in Lw. eexists. apply slice_ret; [apply Hst; lia|lia].
  - split; intros _.
    + exists b. split; [eapply nth_error_In; exact Eb|left; lia].
    + cbn [bind]. eexists. apply slice_ret; lia.
Qed.

(** On a window of a valid text that contains a character start: the result is
    valid text, the window without leading continuation bytes and without a
    multi-byte character at its end.  (Missing: other windows panic.) *)
Theorem C30_trim_partial : forall before w after,
  utf8 (before ++ w ++ after) -> (exists b, In b w /\ starts_char b) ->
  exists pre r post, extract_valid_utf8_slice w = Ret r /\ w = pre ++ r ++ post /\ utf8 r /\
    Forall (fun b => ~ starts_char b) pre /\
    (post = [] \/ exists b q, post = b :: q /\ 192 <= b2n b /\ Forall (fun b => ~ starts_char b) q).
Proof.
  intros before w after Hu Hex.
  destruct (proj2 (C30_trim_panics_iff w) Hex) as (r & Er). revert Er.
  unfold extract_valid_utf8_slice.
  destruct (skip_cont_spec w) as (pre & rest & Ew & Es & Hpre & Hrest). rewrite Es.
  destruct Hrest as [->|Hrest].
  { exfalso. destruct Hex as (b & Hb & Hs). rewrite app_nil_r in Ew. subst w.
    rewrite Forall_forall in Hpre. exact (Hpre b Hb Hs). }
  assert (Lw : length w = length pre + length rest) by (rewrite Ew, app_length; reflexivity).
  assert (Hl : 0 < length rest) by (destruct Hrest as (b & q & -> & _); cbn; lia).
  rewrite checked_sub_le by lia. cbn [bind].
  destruct (nth_error w (length w - 1)) as [b|] eqn:Eb; [|apply nth_error_None in Eb; lia].
  unfold idx. rewrite Eb. cbn [unwrap bind].
  (* the start is a boundary *)
  assert (B1 : utf8 (before ++ pre)).
  { apply (utf8_cut_before _ (rest ++ after)); [rewrite Ew, <- !app_assoc in Hu; rewrite <- app_assoc; exact Hu|].
    right. destruct Hrest as (b1 & r1 & -> & Hb1). exists b1, (r1 ++ after). auto. }
  destruct (Nat.leb_spec 128 (b2n b)) as [H8|H8].
  - destruct (back_to_start_spec w (length pre) (length w - 1)) as (k & E & Hk & Hn & Hst & Hc); [lia|].
    rewrite E. cbn [bind]. specialize (Hst ltac:(lia)). intros Er.
    rewrite slice_ret in Er by lia. injection Er as Er.
    assert (Hks : exists bk, nth_error w k = Some bk /\ starts_char bk).
    { destruct (Nat.eq_dec k (length pre)) as [->|Hne]; [|apply Hc; lia].
      destruct Hrest as (b1 & r1 & -> & Hb1). exists b1. split; [|exact Hb1].
      rewrite Ew, nth_error_app2, Nat.sub_diag by lia. reflexivity. }
    destruct Hks as (bk & Ebk & Hbk).
    destruct (nth_error_split _ _ Ebk) as (u & v & Ewuv & Lu).
    assert (Er2 : u = pre ++ r).
    { rewrite <- Er. rewrite Ewuv in Ew. rewrite Ewuv.
      rewrite skipn_app, firstn_app. rewrite skipn_length, Lu, Nat.sub_diag. cbn [firstn]. rewrite app_nil_r.
      rewrite firstn_all2 by (rewrite skipn_length; lia).
      assert (Ep : pre = firstn (length pre) u).
      { apply (f_equal (firstn (length pre))) in Ew. rewrite firstn_length_app, firstn_app in Ew.
        replace (length pre - length u) with 0 in Ew by lia. rewrite firstn_O, app_nil_r in Ew. congruence. }
      rewrite Ep at 1. symmetry. apply firstn_skipn. }
    exists pre, r, (bk :: v). rewrite slice_ret, Er by lia. split; [reflexivity|].
    split; [rewrite Ewuv, Er2, <- app_assoc; reflexivity|]. split; [|split; [exact Hpre|]].
    + apply (utf8_app_inv (before ++ pre)); [exact B1|].
      apply (utf8_cut_before _ ((bk :: v) ++ after)); [|right; exists bk, (v ++ after); auto].
      rewrite Ewuv, Er2 in Hu. rewrite <- !app_assoc in *. exact Hu.
    + right. exists bk, v. split; [reflexivity|].
      assert (Lv : length w = S (k + length v)) by (rewrite Ewuv, app_length; cbn; lia).
      assert (Hv : Forall (fun b => ~ starts_char b) v).
      { apply Forall_forall. intros q Hq. apply In_nth_error in Hq as (j & Hj).
        assert (j < length v) by (apply nth_error_Some; congruence).
        apply (Hn (S (k + j)) q); [lia|].
        rewrite Ewuv, nth_error_app2 by lia. replace (S (k + j) - length u) with (S j) by lia. exact Hj. }
      split; [|exact Hv].
      destruct Hbk as [Hbk|Hbk]; [exfalso|exact Hbk].
      destruct (Nat.eq_dec k (length w - 1)) as [->|Hne].
      * rewrite Eb in Ebk. injection Ebk as ->. lia.
      * (* an ASCII byte cannot be followed by a continuation byte *)
        destruct v as [|v0 v]; [cbn in Lv; lia|].
        rewrite Ewuv in Hu. rewrite <- !app_assoc in Hu. cbn [app] in Hu. rewrite app_assoc in Hu.
        apply utf8_cut_after in Hu as (_ & Hu2); [|exact Hbk].
        inversion Hv as [|? ? Hv0 _]; subst.
        inversion Hu2 as [|c r' Hc' _ Ec]. apply Hv0. unfold starts_char.
        destruct Hc'; injection Ec as -> _; lia.
  - cbn [bind]. intros Er. rewrite slice_ret in Er by lia. injection Er as Er.
    assert (Er2 : r = rest).
    { rewrite <- Er, Lw. replace (length pre + length rest - length pre) with (length rest) by lia.
      rewrite Ew at 1. rewrite skipn_length_app. apply firstn_all. }
    exists pre, rest, []. rewrite slice_ret, Er, Er2 by lia.
    split; [reflexivity|]. split; [rewrite app_nil_r; exact Ew|]. split; [|auto].
    apply (utf8_app_inv (before ++ pre)); [exact B1|].
    destruct (nth_error_split _ _ Eb) as (u & v & Ewuv & Lu).
    assert (v = []).
    { apply (f_equal (@length _)) in Ewuv. rewrite app_length in Ewuv. cbn in Ewuv.
      destruct v; [reflexivity|cbn in Ewuv; lia]. }
    subst v. assert (Hw : utf8 (before ++ w)).
    { rewrite Ewuv. rewrite app_assoc. apply (utf8_cut_after (before ++ u) b after); [lia|].
      rewrite Ewuv in Hu. rewrite <- !app_assoc in *. exact Hu. }
    rewrite <- app_assoc, <- Ew. exact Hw.
Qed.

(** The full property fails on an empty window and inside a long character. *)
Theorem C30_trim_refuted : exists before w after,
  utf8 (before ++ w ++ after) /\ w <> [] /\ extract_valid_utf8_slice w = Panic /\
  extract_valid_utf8_slice [] = Panic.
Proof.
  exists [xc3], [xa9], []. split; [|split; [discriminate|split; reflexivity]].
  apply (utf8_cons [xc3; xa9] []); [apply uc2; cbn; lia|constructor].
Qed.

Example C30_example :
  extract_valid_utf8_slice [xa9; x61; xc3; xa9; x62; xc3] = Ret [x61; xc3; xa9; x62] /\
  extract_valid_utf8_slice [x61; xc3; xa9] = Ret [x61].
Proof. split; reflexivity. Qed.

(** ** C31 *)
(** Nothing but a newline follows two newlines inside [p]. *)
Definition no_inner_cut (p : bstr) : Prop := forall k b,
  nth_error p k = Some x0a -> nth_error p (S k) = Some x0a -> nth_error p (S (S k)) = Some b -> b = x0a.
Definition ends_with_blank (p : bstr) : Prop := exists u, p = u ++ [x0a; x0a].
Definition starts_other (p : bstr) : Prop := exists b v, p = b :: v /\ b <> x0a.

(** The paragraphs of a text: it is cut exactly where a blank line is followed
    by something other than a newline. *)
Record is_paragraphs (file : bstr) (ps : list bstr) : Prop := {
  ip_concat : concat ps = file;
  ip_each : forall p, In p ps -> p <> [] /\ no_inner_cut p;
  ip_cuts : forall pre p q post, ps = pre ++ p :: q :: post -> ends_with_blank p /\ starts_other q
}.

(** The selected ones of a list, in order. *)
Fixpoint select {A} (sel : list bool) (l : list A) : list A :=
  match sel, l with
  | true :: sel', x :: l' => x :: select sel' l'
  | false :: sel', _ :: l' => select sel' l'
  | _, _ => []
  end.

Lemma select_snoc {A} sel (l : list A) b x : length sel = length l ->
  select (sel ++ [b]) (l ++ [x]) = select sel l ++ (if b then [x] else []).
Proof.
  revert l; induction sel as [|[|] sel IH]; intros [|y l] H; cbn in *; try discriminate.
  - destruct b; reflexivity.
  - f_equal. apply IH. lia.
  - apply IH. lia.
Qed.

Lemma read_line_spec data : data <> [] -> exists l r, read_line data = (l, r) /\ data = l ++ r /\ l <> [] /\
  (forall k, k < length l - 1 -> nth_error l k <> Some x0a) /\
  (r = [] \/ exists u, l = u ++ [x0a]).
Proof.
  induction data as [|b data IH]; intros Hd; [congruence|]. cbn [read_line].
  destruct (Byte.eqb b x0a) eqn:Eb.
  - apply byte_eqb_eq in Eb as ->. exists [x0a], data. repeat split; auto; try discriminate.
    + cbn. lia.
    + right. exists []. reflexivity.
  - destruct data as [|b2 data].
    + cbn. exists [b], []. repeat split; auto; try discriminate. cbn. lia.
    + destruct IH as (l & r & E & Ed & Hl & Hn & Hr); [discriminate|]. rewrite E.
      exists (b :: l), r. rewrite Ed. repeat split; auto; try discriminate.
      * intros [|k] Hk; cbn [nth_error].
        { intros X. injection X as X. rewrite X in Eb. discriminate Eb. }
        { apply Hn. destruct l; [congruence|cbn in *; lia]. }
      * destruct Hr as [Hr|(u & ->)]; [auto|right]. exists (b :: u). reflexivity.
Qed.

Lemma ends_blank_spec p : ends_blank p = true <-> ends_with_blank p.
Proof.
  unfold ends_blank, ends_with_blank. split.
  - intros H. destruct (rev p) as [|a [|b r]] eqn:E; try discriminate.
    apply andb_true_iff in H as (H1 & H2). apply byte_eqb_eq in H1, H2. subst.
    exists (rev r). rewrite <- (rev_involutive p), E. cbn. rewrite <- app_assoc. reflexivity.
  - intros (u & ->). rewrite rev_app_distr. reflexivity.
Qed.

Lemma ends_blank_nth p : ends_blank p = false -> 
  forall k, nth_error p k = Some x0a -> nth_error p (S k) = Some x0a -> S (S k) <> length p.
Proof.
  intros H k H1 H2 E. assert (X : ends_blank p = true); [|congruence].
  apply ends_blank_spec. apply nth_error_split in H1 as (u & v & -> & Lu).
  rewrite app_length in E. cbn in E. rewrite nth_error_app2 in H2 by lia.
  replace (S k - length u) with 1 in H2 by lia. cbn in H2.
  destruct v as [|c v]; [discriminate|]. cbn in H2. injection H2 as ->.
  destruct v; [|cbn in E; lia]. exists u. reflexivity.
Qed.

Lemma line_no_inner l : (forall k, k < length l - 1 -> nth_error l k <> Some x0a) -> no_inner_cut l.
Proof.
  intros H k b H1 _ H3. exfalso. apply (H k); [|exact H1].
  assert (S (S k) < length l) by (apply nth_error_Some; congruence). lia.
Qed.

Lemma app_no_inner p l : no_inner_cut p ->
  (forall k, k < length l - 1 -> nth_error l k <> Some x0a) ->
  (starts_newline l = true \/ ends_blank p = false) -> no_inner_cut (p ++ l).
Proof.
  intros Hp Hl Hor k b H1 H2 H3.
  destruct (Nat.lt_ge_cases (S (S k)) (length p)) as [Hlt|Hge].
  { rewrite nth_error_app1 in H1 by lia. rewrite nth_error_app1 in H2 by lia. rewrite nth_error_app1 in H3 by lia.
    exact (Hp k b H1 H2 H3). }
  destruct (Nat.eq_dec (S (S k)) (length p)) as [Heq|Hne].
  - rewrite nth_error_app1 in H1, H2 by lia. rewrite nth_error_app2 in H3 by lia.
    replace (S (S k) - length p) with 0 in H3 by lia.
    destruct Hor as [Hs|He].
    + destruct l as [|c l]; [discriminate|]. cbn in *. apply byte_eqb_eq in Hs. congruence.
    + exfalso. exact (ends_blank_nth p He k H1 H2 Heq).
  - exfalso. rewrite nth_error_app2 in H2 by lia. rewrite nth_error_app2 in H3 by lia.
    apply (Hl (S k - length p)); [|exact H2].
    assert (S (S k) - length p < length l) by (apply nth_error_Some; congruence). lia.
Qed.

(** The state of the loop, with the finished paragraphs and what was selected. *)
Record sub_inv (file rest data paragraph : bstr) (nread : nat) (done : list bstr) (sel : list bool) : Prop := {
  si_file : file = concat done ++ paragraph ++ rest;
  si_read : nread = length (concat done);
  si_data : data = concat (select sel done);
  si_len : length sel = length done;
  si_each : forall p, In p done -> p <> [] /\ no_inner_cut p;
  si_cuts : forall pre p q post, done ++ [paragraph] = pre ++ p :: q :: post -> ends_with_blank p /\ starts_other q;
  si_par : no_inner_cut paragraph;
  si_start : paragraph = [] -> done = []
}.

Section Below.
Variable below : nat -> nat -> bool.

(** The choices follow the comparison. *)
Fixpoint choices (taken nread : nat) (ps : list bstr) : list bool :=
  match ps with
  | [] => []
  | p :: r => let b := below taken nread in
              b :: choices (if b then taken + length p else taken) (nread + length p) r
  end.

Lemma choices_snoc ps : forall taken nread p,
  choices taken nread (ps ++ [p]) = choices taken nread ps ++
    [below (taken + length (concat (select (choices taken nread ps) ps))) (nread + length (concat ps))].
Proof.
  induction ps as [|x ps IH]; intros taken nread p; cbn [choices app select concat].
  - cbn. rewrite !Nat.add_0_r. reflexivity.
  - rewrite IH. f_equal. f_equal. f_equal. f_equal.
    + destruct (below taken nread); cbn [concat]; rewrite ?app_length; lia.
    + rewrite app_length; lia.
Qed.

Lemma choices_length ps : forall taken nread, length (choices taken nread ps) = length ps.
Proof. induction ps as [|p ps IH]; intros; cbn; [reflexivity|]. f_equal. apply IH. Qed.

Lemma app_snoc_split {A} (l : list A) y pre p q post :
  l ++ [y] = pre ++ p :: q :: post ->
  (post = [] /\ q = y /\ l = pre ++ [p]) \/ (exists post', post = post' ++ [y] /\ l = pre ++ p :: q :: post').
Proof.
  intros E. destruct (exists_last (l := p :: q :: post)) as (m & z & Em); [discriminate|].
  rewrite Em, app_assoc in E. apply app_inj_tail in E as (-> & <-).
  destruct m as [|a m]; [discriminate|]. injection Em as <- Em.
  destruct m as [|a m]; injection Em as -> Em.
  - left. subst. auto.
  - right. exists m. auto.
Qed.

Lemma subsample_loop_spec file : forall fuel rest data paragraph nread done,
  length rest < fuel ->
  sub_inv file rest data paragraph nread done (choices 0 0 done) ->
  exists data' paragraph' nread' done',
    subsample_loop below fuel rest data paragraph nread = Ret (data', paragraph', nread') /\
    sub_inv file [] data' paragraph' nread' done' (choices 0 0 done').
Proof.
  induction fuel as [|f IH]; intros rest data paragraph nread done Hf I; [lia|].
  cbn [subsample_loop]. destruct rest as [|r0 rest0] eqn:Er.
  { cbn. exists data, paragraph, nread, done. auto. }
  rewrite <- Er in *. assert (Hne : rest <> []) by (rewrite Er; discriminate). clear Er r0 rest0.
  destruct (read_line_spec rest Hne) as (l & r & E & Erest & Hl & Hn & Hend). rewrite E.
  destruct l as [|l0 l'] eqn:El; [congruence|]. rewrite <- El in *. clear l' El l0.
  assert (Lr : length r < f).
  { rewrite Erest, app_length in Hf. destruct l; [congruence|cbn in Hf; lia]. }
  destruct I as [I1 I2 I3 I4 I5 I6 I7 I8].
  destruct (negb (starts_newline l) && ends_blank paragraph) eqn:Ec.
  - apply andb_true_iff in Ec as (Es & Eb). apply negb_true_iff in Es.
    apply ends_blank_spec in Eb.
    assert (Hp : paragraph <> []) by (destruct Eb as (u & ->); destruct u; discriminate).
    assert (Hso : starts_other l).
    { destruct l as [|c l']; [congruence|]. exists c, l'. split; [reflexivity|]. intros ->. discriminate. }
    apply (IH r _ _ _ (done ++ [paragraph])); [exact Lr|]. split.
    + rewrite I1, Erest, concat_app. cbn [concat]. rewrite app_nil_r, <- !app_assoc. reflexivity.
    + rewrite I2, concat_app, app_length. cbn [concat]. rewrite app_nil_r. reflexivity.
    + rewrite choices_snoc, select_snoc by exact I4. rewrite concat_app, <- I3. cbn [Nat.add].
      rewrite <- I2. destruct (below (length data) nread); cbn [concat]; rewrite ?app_nil_r; reflexivity.
    + rewrite choices_length. reflexivity.
    + intros p Hin. apply in_app_iff in Hin as [Hin|[<-|[]]]; auto.
    + intros pre p q post Ex.
      destruct (app_snoc_split _ _ _ _ _ _ Ex) as [(-> & -> & Ed)|(post' & -> & Ed)].
      * apply app_inj_tail in Ed as (_ & <-). auto.
      * apply (I6 _ _ _ _ Ed).
    + apply line_no_inner; exact Hn.
    + intros ->. congruence.
  - apply (IH r _ _ _ done); [exact Lr|]. split; auto.
    + rewrite I1, Erest, <- !app_assoc. reflexivity.
    + intros pre p q post Ex. destruct paragraph as [|c0 p0] eqn:Ep.
      * rewrite (I8 eq_refl) in Ex. destruct pre as [|? [|? ?]]; discriminate.
      * destruct (app_snoc_split _ _ _ _ _ _ Ex) as [(-> & -> & Ed)|(post' & -> & Ed)].
        -- destruct (I6 pre p (c0 :: p0) []) as (X & (b & v & Y & Z)).
           { rewrite Ed, <- app_assoc. reflexivity. }
           split; [exact X|]. exists b, (v ++ l). injection Y as -> ->. auto.
        -- apply (I6 pre p q (post' ++ [c0 :: p0])). rewrite Ed, <- app_assoc. reflexivity.
    + apply app_no_inner; auto. apply andb_false_iff in Ec as [Ec|Ec]; [left|right; exact Ec].
      apply negb_false_iff; exact Ec.
    + intros Ex. apply app_eq_nil in Ex as (_ & ->). congruence.
Qed.

Lemma subsample_spec file : exists ps,
  is_paragraphs file ps /\
  subsample below file = Ret (concat (select (choices 0 0 ps) ps)).
Proof.
  destruct (subsample_loop_spec file (S (length file)) file [] [] 0 []) as (data & par & nread & done & E & I).
  - lia.
  - split; auto; try reflexivity.
    + intros p [].
    + intros pre p q post Ex. destruct pre as [|? [|? ?]]; discriminate.
    + intros [|k] b; discriminate.
  - unfold subsample. rewrite E. cbn [bind]. destruct I as [I1 I2 I3 I4 I5 I6 I7 I8].
    rewrite app_nil_r in I1. destruct par as [|c0 p0] eqn:Ep.
    + specialize (I8 eq_refl). subst done. exists []. subst. split; [|cbn; destruct (below 0 0); reflexivity].
      split; [reflexivity|intros p []|]. intros pre p q post Ex. destruct pre; discriminate.
    + exists (done ++ [c0 :: p0]). split.
      * split.
        -- rewrite concat_app. cbn [concat]. rewrite app_nil_r. symmetry. exact I1.
        -- intros p Hin. apply in_app_iff in Hin as [Hin|[<-|[]]]; [auto|]. split; [discriminate|exact I7].
        -- exact I6.
      * rewrite choices_snoc, select_snoc by exact I4. rewrite concat_app, <- I3. cbn [Nat.add].
        rewrite <- I2. destruct (below (length data) nread); cbn [concat]; rewrite ?app_nil_r; reflexivity.
Qed.
End Below.

(** ** C31 *)
(** What is known of the comparison [taken / read < size / len]: never true when
    the quotient is at least the share (see SampleFloat.v for the rounded
    floating point comparison, which has this property for sizes below 2^53). *)
Definition never_over (below : nat -> nat -> bool) (size len : nat) : Prop :=
  forall taken nread, below taken nread = true -> taken * len < size * nread.
(** ... and true when it is below by more than one byte's worth. *)
Definition never_far_under (below : nat -> nat -> bool) (size len : nat) : Prop :=
  forall taken nread, nread <= len -> below taken nread = false -> size * nread <= (taken + 1) * len.

(** The result consists of whole paragraphs, in order. *)
Theorem C31_whole_paragraphs below file : exists ps sel,
  is_paragraphs file ps /\ length sel = length ps /\
  subsample below file = Ret (concat (select sel ps)).
Proof.
  destruct (subsample_spec below file) as (ps & H & E). exists ps, (choices below 0 0 ps).
  split; [exact H|]. split; [apply choices_length|exact E].
Qed.

Lemma select_In {A} : forall (l : list A) sel x, In x (select sel l) -> In x l.
Proof.
  induction l as [|y l IH]; intros [|[|] sel] x H; cbn in H; try contradiction.
  - destruct H as [->|H]; [left; reflexivity|right; eapply IH; eauto].
  - right. eapply IH; eauto.
Qed.

Lemma choices_upper below size len : never_over below size len ->
  forall ps taken nread, nread + length (concat ps) <= len ->
  select (choices below taken nread ps) ps = [] \/
  exists before p, select (choices below taken nread ps) ps = before ++ [p] /\ In p ps /\
    taken + length (concat before) < size.
Proof.
  intros Hb. induction ps as [|p ps IH]; intros taken nread Hl; [left; reflexivity|].
  cbn [choices select concat] in *. rewrite app_length in Hl.
  destruct (below taken nread) eqn:E.
  - apply Hb in E. right.
    destruct (IH (taken + length p) (nread + length p)) as [E2|(before & q & E2 & Hq & Hlt)]; [lia| |].
    + rewrite E2. exists [], p. cbn. split; [reflexivity|]. split; [auto|]. nia.
    + rewrite E2. exists (p :: before), q. cbn [app concat]. split; [reflexivity|]. split; [right; exact Hq|].
      rewrite app_length. lia.
  - destruct (IH taken (nread + length p)) as [E2|(before & q & E2 & Hq & Hlt)]; [lia|left; exact E2|].
    right. exists before, q. split; [exact E2|]. split; [right; exact Hq|exact Hlt].
Qed.

(** Its size is less than the requested size plus its last paragraph. *)
Theorem C31_at_most_one_over below size file :
  never_over below size (length file) ->
  exists ps data, is_paragraphs file ps /\ subsample below file = Ret data /\
    (data = [] \/ exists before p, data = before ++ p /\ In p ps /\ length before < size).
Proof.
  intros Hb. destruct (subsample_spec below file) as (ps & H & E).
  exists ps, (concat (select (choices below 0 0 ps) ps)). split; [exact H|]. split; [exact E|].
  destruct (choices_upper below size (length file) Hb ps 0 0) as [E2|(before & p & E2 & Hp & Hlt)].
  - rewrite (ip_concat _ _ H). lia.
  - left. apply (f_equal (@concat byte)) in E2. exact E2.
  - right. exists (concat before), p. apply (f_equal (@concat byte)) in E2.
    rewrite concat_app in E2. cbn [concat] in E2. rewrite app_nil_r in E2.
    split; [exact E2|]. split; [exact Hp|exact Hlt].
Qed.

Lemma choices_lower below size len M : never_far_under below size len -> size <= len ->
  forall ps taken nread, nread + length (concat ps) <= len ->
  (forall p, In p ps -> length p <= M) ->
  size * nread <= (taken + 1 + M) * len ->
  size * (nread + length (concat ps)) <=
  (taken + length (concat (select (choices below taken nread ps) ps)) + 1 + M) * len.
Proof.
  intros Hb Hs. induction ps as [|p ps IH]; intros taken nread Hl HM Hi; [cbn in *; nia|].
  cbn [choices select concat] in *. rewrite app_length in *.
  assert (Hp : length p <= M) by (apply HM; left; reflexivity).
  destruct (below taken nread) eqn:E.
  - cbn [concat]. rewrite app_length.
    replace (nread + (length p + length (concat ps))) with ((nread + length p) + length (concat ps)) by lia.
    rewrite !Nat.add_assoc. apply IH; [lia|intros q Hq; apply HM; right; exact Hq|nia].
  - apply Hb in E; [|lia]. rewrite !Nat.add_assoc.
    apply IH; [lia|intros q Hq; apply HM; right; exact Hq|nia].
Qed.

(** It falls short of the requested size by at most one byte plus the longest
    paragraph. *)
Theorem C31_at_most_one_short below size file : 
  never_far_under below size (length file) -> size <= length file ->
  exists ps data, is_paragraphs file ps /\ subsample below file = Ret data /\
    forall M, (forall p, In p ps -> length p <= M) -> size <= length data + 1 + M.
Proof.
  intros Hb Hs. destruct (subsample_spec below file) as (ps & H & E).
  exists ps, (concat (select (choices below 0 0 ps) ps)). split; [exact H|]. split; [exact E|]. intros M HM.
  destruct (Nat.eq_dec (length file) 0) as [Z|NZ]; [lia|].
  pose proof (choices_lower below size (length file) M Hb Hs ps 0 0) as X.
  rewrite (ip_concat _ _ H) in X. cbn [Nat.add] in X. specialize (X (le_n _) HM).
  rewrite Nat.mul_0_r in X. specialize (X (Nat.le_0_l _)).
  apply Nat.mul_le_mono_pos_r in X; [exact X|lia].
Qed.

(** The quotient 0/0 before the first paragraph is not below anything: the first
    paragraph is never taken, so a one-paragraph file always yields nothing. *)
Theorem C31_first_paragraph_never_taken below size file :
  never_over below size (length file) ->
  exists p ps sel, (file = [] \/ is_paragraphs file (p :: ps)) /\
    subsample below file = Ret (concat (select sel ps)).
Proof.
  intros Hb. destruct (subsample_spec below file) as (ps & H & E).
  destruct ps as [|p ps].
  - exists [], [], []. split; [left; symmetry; exact (ip_concat _ _ H)|exact E].
  - exists p, ps. cbn [choices select] in E. destruct (below 0 0) eqn:E0.
    + apply Hb in E0. lia.
    + eexists. split; [right; exact H|exact E].
Qed.

Example C31_example :
  let below := fun a b => a * 8 <? 4 * b in
  never_over below 4 8 /\ never_far_under below 4 8 /\
  subsample below [x61;x0a;x0a;x62;x0a;x0a;x0a;x63] = Ret [x62;x0a;x0a;x0a].
Proof.
  cbv zeta. split; [|split; [|reflexivity]].
  - intros a b H. apply Nat.ltb_lt in H. exact H.
  - intros a b _ H. apply Nat.ltb_ge in H. lia.
Qed.
