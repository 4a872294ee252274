(** * Statistics of a list of samples; reasoning about optimizer programs. *)
From Coq Require Import ZArith.
From Verif Require Import Base BaseLemmas TokenSetModel TokenizerModel TokSpec TokenizerProof1 TokenizerProof2
  TokenizerTheory TokenSetProof TokenSetProof2 PropTokenizer StatsAlgebra BatchModel PropBatch
  JsonModel PropJson Shaped CacheModel PropCache OptBytesModel OptBytesProof OptBytesProof2
  OptBytesProof3 OptBytesProof4 OptimizeModel.

(** ** What the statistics of a list of samples count *)

(** [ps] is the list of the segmentations of the samples. *)
Record tallied (ts : tokenset) (samples : list bstr) (pss : list (list piece)) (s : stats) : Prop := {
  ta_set : st_token_set s = ts;
  ta_opt : Forall2 (optimal ts) pss samples;
  ta_total : total_tokens s = length (stream ts (concat pss));
  ta_ntok : length (token_counts s) = ntokens ts;
  ta_nseq : length (seq_counts s) = length (sequences ts);
  ta_tok : forall t, nth t (token_counts s) 0 = count_occ Nat.eq_dec (stream ts (concat pss)) t;
  ta_seq : forall q, nth q (seq_counts s) 0 = count_occ piece_eq_dec (concat pss) (PSeq q)
}.

Definition pairs_tallied (ts : tokenset) (pss : list (list piece)) (s : stats) : Prop :=
  length (pair_counts s) = ntokens ts * ntokens ts /\
  forall i j, i < ntokens ts -> j < ntokens ts ->
    nth (i * ntokens ts + j) (pair_counts s) 0 = sum (map (adj i j) pss).

Lemma delta_counted ts tk x : tokenizer_new ts = Ret tk -> seqs_in_range ts ->
  exists ps, optimal ts ps x /\ counted ts ps x (stats_new ts None) (delta ts tk x).
Proof.
  intros Htk Hr. destruct (tokenization_correct ts tk x Htk Hr) as (ps & cs & Ho & Hall).
  destruct (Hall (stats_new ts None) [] (matches_new ts None)) as (d & E & D).
  exists ps. split; [exact Ho|]. unfold delta. rewrite E. exact D.
Qed.

Lemma nth_repeat0 n i : nth i (repeat 0 n) 0 = 0.
Proof. revert i; induction n; intros [|i]; cbn; auto. Qed.

Lemma tally_tallied ts tk init l : tokenizer_new ts = Ret tk -> seqs_in_range ts ->
  exists pss, tallied ts l pss (tally ts tk init l) /\ pairs_tallied ts pss (tally ts tk init l).
Proof.
  intros Htk Hr. induction l as [|x l IH] using rev_ind.
  - exists []. unfold tally; cbn [fold_left]. split; [split|split]; cbn.
    + reflexivity.
    + constructor.
    + reflexivity.
    + apply repeat_length.
    + apply repeat_length.
    + intros t. apply nth_repeat0.
    + intros q. apply nth_repeat0.
    + apply repeat_length.
    + intros i j _ _. apply nth_repeat0.
  - destruct IH as (pss & [A1 A2 A3 A4 A5 A6 A7] & P1 & P2).
    destruct (delta_counted ts tk x Htk Hr) as (ps & Ho & D).
    pose proof (delta_matches ts tk Htk Hr x) as (M1 & M2 & M3 & M4).
    destruct D as [_ D1 _ _ D2 D3 D4]. cbn [stats_new total_tokens token_counts seq_counts pair_counts] in D1, D2, D3, D4.
    exists (pss ++ [ps]). rewrite (tally_snoc ts tk). unfold madd.
    assert (Ec : concat (pss ++ [ps]) = concat pss ++ ps) by (rewrite concat_app; cbn; rewrite app_nil_r; reflexivity).
    split; [split|split]; cbn [st_token_set total_tokens token_counts seq_counts pair_counts]; rewrite ?Ec; rewrite ?stream_app.
    + exact A1.
    + apply Forall2_app; [exact A2|]. constructor; [exact Ho|constructor].
    + rewrite app_length, A3, D1. reflexivity.
    + rewrite zadd_length; congruence.
    + rewrite zadd_length; congruence.
    + intros t. rewrite nth_zadd by congruence. rewrite A6, D2, nth_repeat0, count_occ_app. reflexivity.
    + intros q. rewrite nth_zadd by congruence. rewrite A7, D3, nth_repeat0, count_occ_app. reflexivity.
    + rewrite zadd_length; congruence.
    + intros i j Hi Hj. rewrite nth_zadd by congruence. rewrite P2, D4, nth_repeat0 by assumption.
      rewrite map_app, sum_app. unfold sum at 3. cbn. lia.
Qed.

Lemma sync_tallied ts samples init s : tokenize_file_sync ts samples init = Ret s -> seqs_in_range ts ->
  exists pss, tallied ts samples pss s /\ pairs_tallied ts pss s.
Proof.
  intros H Hr. pose proof H as H0. unfold tokenize_file_sync in H0.
  destruct (tokenizer_new ts) as [tk| |] eqn:Htk; try discriminate. clear H0.
  rewrite (sync_eq ts tk Htk Hr) in H. injection H as <-. apply tally_tallied; assumption.
Qed.

Lemma tallied_without ts samples pss s : tallied ts samples pss s -> tallied ts samples pss (without_pairs s).
Proof. intros [A1 A2 A3 A4 A5 A6 A7]. split; assumption. Qed.

(** ** Comparing totals *)
Lemma optimal_total_le (a : tokenset) samples pss qss :
  Forall2 (optimal a) pss samples -> Forall2 (segments a) qss samples ->
  length (stream a (concat pss)) <= length (stream a (concat qss)).
Proof.
  intros H. revert qss. induction H as [|ps x pss samples (_ & Ho) _ IH]; intros qss Hq; inversion Hq; subst; cbn [concat]; [lia|].
  rewrite !stream_app, !app_length. apply Nat.add_le_mono; [apply Ho; assumption|apply IH; assumption].
Qed.

(** [re]: re-encoding of pieces *)
Lemma reencode (a b : tokenset) samples pss (cost : piece -> nat) :
  (forall p x, piece_string b p = Some x -> exists q, piece_string a q = Some x /\ length (piece_tokens a q) <= cost p) ->
  Forall2 (segments b) pss samples ->
  exists qss, Forall2 (segments a) qss samples /\ length (stream a (concat qss)) <= sum (map cost (concat pss)).
Proof.
  intros Hc. induction 1 as [|ps x pss samples Hs _ (qss & IH1 & IH2)].
  - exists []. split; [constructor|cbn; lia].
  - assert (G : exists qs, segments a qs x /\ length (stream a qs) <= sum (map cost ps)).
    { clear -Hc Hs. induction Hs as [|p ps s r Hp _ (qs & G1 & G2)]; [exists []; split; [constructor|cbn; lia]|].
      destruct (Hc p s Hp) as (q & Hq & Hl). exists (q :: qs). split; [constructor; assumption|].
      unfold stream in *; cbn [flat_map map]. rewrite app_length. unfold sum in *; cbn. lia. }
    destruct G as (qs & G1 & G2). exists (qs :: qss). split; [constructor; assumption|].
    cbn [concat]. rewrite stream_app, map_app, sum_app, app_length. lia.
Qed.

(** ** A program logic for optimizer programs *)
Section Logic.
Variables (samples : list bstr) (init : option nat).

Definition askable (r : request) : Prop := (exists ss, shaped (requested r) ss) /\ usable (requested r).

(** [ok p S Q]: whatever the cache (transparently) answers, [p] asks only for
    well-shaped accepted token sets, saves only sets in [S] and returns normally
    with a result in [Q]. *)
Fixpoint ok {A} (p : prog A) (S : tokenset -> Prop) (Q : A -> Prop) : Prop :=
  match p with
  | PDone o => exists a, o = Ret a /\ Q a
  | PAsk r k => askable r /\ forall a, fresh_answer samples init r a -> ok (k a) S Q
  | PSave ts k => S ts /\ ok k S Q
  end.

Lemma ok_mono {A} (p : prog A) (S S' : tokenset -> Prop) (Q Q' : A -> Prop) :
  (forall t, S t -> S' t) -> (forall a, Q a -> Q' a) -> ok p S Q -> ok p S' Q'.
Proof.
  intros HS HQ. induction p as [o|r k IH|ts k IH]; cbn.
  - intros (a & E & H). eauto.
  - intros (Ha & H). split; [exact Ha|]. intros a Hf. apply IH. auto.
  - intros (H1 & H2). auto.
Qed.

Lemma ok_bind {A B} (m : prog A) (f : A -> prog B) S Q :
  ok m S (fun a => ok (f a) S Q) -> ok (pbind m f) S Q.
Proof.
  induction m as [o|r k IH|ts k IH]; cbn.
  - intros (a & -> & H). exact H.
  - intros (Ha & H). split; [exact Ha|]. intros a Hf. apply IH. auto.
  - intros (H1 & H2). auto.
Qed.

Lemma ok_done {A B} (o : outcome A) a (f : A -> prog B) S Q :
  o = Ret a -> ok (f a) S Q -> ok (pbind (PDone o) f) S Q.
Proof. intros -> H. exact H. Qed.

Lemma ok_ret {A} (a : A) S (Q : A -> Prop) : Q a -> ok (pret a) S Q.
Proof. intros H. exists a. auto. Qed.

Lemma ok_stats {B} ts (f : stats -> prog B) S Q : askable (NoPairs ts) ->
  (forall a, fresh_answer samples init (NoPairs ts) a -> ok (f a) S Q) -> ok (pbind (get_stats ts) f) S Q.
Proof. intros H1 H2. split; [exact H1|]. intros a Ha. cbn. auto. Qed.

Lemma ok_stats_pairs {B} ts (f : stats -> prog B) S Q : askable (WithPairs ts) ->
  (forall a, fresh_answer samples init (WithPairs ts) a -> ok (f a) S Q) -> ok (pbind (get_stats_with_pairs ts) f) S Q.
Proof. intros H1 H2. split; [exact H1|]. intros a Ha. cbn. auto. Qed.

Lemma fresh_unique r a b : fresh_answer samples init r a -> fresh_answer samples init r b -> a = b.
Proof.
  intros (t & s & H1 & H2 & ->) (t' & s' & H3 & H4 & ->).
  assert (t = t') by congruence. subst t'. assert (s = s') by congruence. subst s'. reflexivity.
Qed.

(** Both predicates hold of one and the same result. *)
Lemma ok_and {A} (p : prog A) S S' (Q Q' : A -> Prop) : ok p S Q -> ok p S' Q' -> ok p (fun t => S t /\ S' t) (fun a => Q a /\ Q' a).
Proof.
  induction p as [o|r k IH|ts k IH]; cbn.
  - intros (a & E & H) (a' & E' & H'). assert (a = a') by congruence. subst a'. eauto.
  - intros (Ha & H) (_ & H'). split; [exact Ha|]. intros a Hf. apply IH; auto.
  - intros (H1 & H2) (H3 & H4). auto.
Qed.
End Logic.

(** ** The logic speaks about the executions with cache and threads *)

(** [okO]: the same for any outcome. *)
Fixpoint okO {A} (samples : list bstr) (init : option nat) (p : prog A) (S : tokenset -> Prop) (Q : outcome A -> Prop) : Prop :=
  match p with
  | PDone o => Q o
  | PAsk r k => askable r /\ forall a, fresh_answer samples init r a -> okO samples init (k a) S Q
  | PSave ts k => S ts /\ okO samples init k S Q
  end.

Lemma ok_okO {A} samples init (p : prog A) S Q : ok samples init p S Q -> okO samples init p S (fun o => exists a, o = Ret a /\ Q a).
Proof.
  induction p as [o|r k IH|ts k IH]; cbn; [auto| |].
  - intros (Ha & H). split; auto.
  - intros (H1 & H2). auto.
Qed.

Section Sound.
Variables (n : nat) (total : N) (samples : list bstr) (init : option nat).
Hypothesis Hn : 1 <= n.
Hypothesis Hne : ~ In [] samples.

Record running {A} (S : tokenset -> Prop) (Q : outcome A -> Prop) (m : machine A) : Prop := {
  ru_hist : exists h, history n total samples init h (m_cache m) /\
              forall r a, In (r, a) h -> exists ss, shaped (requested r) ss;
  ru_saved : forall t, In t (m_saved m) -> S t;
  ru_ok : okO samples init (m_prog m) S Q
}.

Lemma running_step {A} S (Q : outcome A -> Prop) m m' : running S Q m -> step n total samples init m m' -> running S Q m'.
Proof.
  intros [(h & Hh & Hs) H2 H3] Hst. destruct Hst as [c sv r k a c' Hc|c sv ts k]; cbn [m_cache m_saved m_prog] in *.
  - destruct H3 as ((Hsh & Hu) & H3).
    assert (Hh' : history n total samples init (h ++ [(r, a)]) c') by (econstructor; eauto).
    assert (Hs' : forall r0 a0, In (r0, a0) (h ++ [(r, a)]) -> exists ss, shaped (requested r0) ss).
    { intros r0 a0 Hi. apply in_app_iff in Hi as [Hi|[Hi|[]]]; [eapply Hs; exact Hi|]. injection Hi as <- <-. exact Hsh. }
    split; cbn [m_cache m_saved m_prog]; [eauto|exact H2|]. apply H3.
    eapply (C15_cache_is_transparent n total samples init _ c' Hn Hh' Hs'). apply in_app_iff; right; left; reflexivity.
  - destruct H3 as (H3 & H4). split; cbn [m_cache m_saved m_prog]; [eauto| |exact H4].
    intros t Ht. apply in_app_iff in Ht as [Ht|[<-|[]]]; auto.
Qed.

Lemma running_progress {A} S (Q : outcome A -> Prop) m : running S Q m ->
  (exists o, m_prog m = PDone o /\ Q o) \/ exists m', step n total samples init m m'.
Proof.
  intros [(h & Hh & Hs) H2 H3]. destruct m as [c sv p]. destruct p as [o|r k|ts k]; cbn [m_cache m_saved m_prog] in *.
  - left. eauto.
  - right. destruct H3 as (((ss & Hsh) & Hu) & H3). apply C01_tokenizer_exists_iff_usable in Hu as (tk & Htk).
    destruct (C15_cache_answers n total samples init h c r ss tk Hn Hne Hh Hsh Htk) as (a & c' & Hc & _).
    eexists. apply step_ask. exact Hc.
  - right. eexists. apply step_save.
Qed.

Theorem okO_sound {A} (p : prog A) S Q : okO samples init p S Q ->
  forall m, steps n total samples init (mkMachine [] [] p) m ->
  (forall t, In t (m_saved m) -> S t) /\
  ((exists o, m_prog m = PDone o /\ Q o) \/ exists m', step n total samples init m m').
Proof.
  intros Hok m Hst.
  assert (R : running S Q m).
  { assert (R0 : running S Q (mkMachine [] [] p)).
    { split; cbn [m_cache m_saved m_prog].
      - exists []. split; [constructor|intros r a []].
      - intros t [].
      - exact Hok. }
    revert R0. generalize dependent (mkMachine (A := A) [] [] p). intros m0 Hst R0.
    induction Hst as [m|m1 m2 m3 _ IH Hs]; [exact R0|]. eapply running_step; [apply IH; exact R0|exact Hs]. }
  split; [apply R|]. apply running_progress with (S := S); exact R.
Qed.

(** Executions of a program are finite. *)
Lemma step_wf {A} (m : machine A) : Acc (fun m2 m1 => step n total samples init m1 m2) m.
Proof.
  destruct m as [c sv p]. revert c sv. induction p as [o|r k IH|ts k IH]; intros c sv; constructor; intros m' H.
  - inversion H.
  - inversion H; subst. apply IH.
  - inversion H; subst. apply IH.
Qed.

Theorem okO_finishes {A} (p : prog A) S Q : okO samples init p S Q ->
  exists m o, steps n total samples init (mkMachine [] [] p) m /\ m_prog m = PDone o /\ Q o.
Proof.
  intros Hok.
  assert (G : forall m, Acc (fun m2 m1 => step n total samples init m1 m2) m ->
     steps n total samples init (mkMachine [] [] p) m ->
     exists m' o, steps n total samples init (mkMachine [] [] p) m' /\ m_prog m' = PDone o /\ Q o).
  { induction 1 as [m _ IH]. intros Hs. destruct (okO_sound p S Q Hok m Hs) as (_ & [(o & E & H)|(m' & H)]); [eauto|].
    apply (IH m' H). econstructor; eauto. }
  apply (G (mkMachine [] [] p) (step_wf _)). constructor.
Qed.

Theorem ok_sound {A} (p : prog A) S Q : ok samples init p S Q ->
  forall m, steps n total samples init (mkMachine [] [] p) m ->
  (forall t, In t (m_saved m) -> S t) /\
  ((exists a, m_prog m = PDone (Ret a) /\ Q a) \/ exists m', step n total samples init m m').
Proof.
  intros Hok m Hst. destruct (okO_sound p S _ (ok_okO _ _ _ _ _ Hok) m Hst) as (H1 & [(o & E & a & -> & Ha)|H]).
  - split; [exact H1|]. left. eauto.
  - auto.
Qed.

Theorem ok_finishes {A} (p : prog A) S Q : ok samples init p S Q ->
  exists m a, steps n total samples init (mkMachine [] [] p) m /\ m_prog m = PDone (Ret a) /\ Q a.
Proof.
  intros Hok. destruct (okO_finishes p S _ (ok_okO _ _ _ _ _ Hok)) as (m & o & H1 & H2 & a & -> & Ha). eauto.
Qed.
End Sound.

(** Reasoning about other outcomes *)
Lemma okO_ask {A B} samples init r (k : stats -> prog A) (f : A -> prog B) S Q : askable r ->
  (forall a, fresh_answer samples init r a -> okO samples init (pbind (k a) f) S Q) ->
  okO samples init (pbind (PAsk r k) f) S Q.
Proof. intros H1 H2. split; [exact H1|]. exact H2. Qed.

Lemma pbind_assoc {A B C} (m : prog A) (f : A -> prog B) (g : B -> prog C) S Q samples init :
  okO samples init (pbind m (fun a => pbind (f a) g)) S Q -> okO samples init (pbind (pbind m f) g) S Q.
Proof.
  induction m as [[a| |]|r k IH|ts k IH]; cbn; auto.
  - intros (H1 & H2). split; auto.
  - intros (H1 & H2). auto.
Qed.
