(** * Properties C59, C61, C63: the files of an optimization, and resuming. *)
From Coq Require Import String ZArith.
From Verif Require Import Base BaseLemmas Utf8 TokenSetModel TokenizerModel TokSpec SortLemmas
  TokenizerProof1 TokenSetProof TokenizerTheory TokenSetProof2 PropTokenSet PropTokenizer StatsAlgebra BatchModel PropBatch
  JsonModel JsonText JsonProof PropJson Shaped SamplerModel PropSampler ProcessingModel CacheModel PropCache OptBytesModel OptimizeModel
  OptimizeProof1 OptimizeProof2 OptimizeProof3 OptimizeProof4 OptimizeProof5 OptimizeProof6 OptimizeProof7 OptimizeProof8
  PropOptimize PropDeterminism PropFixpoint MainModel PropMain CommandsModel PropFiles PropCommands.
Local Open Scope list_scope.
Local Notation length := List.length.

(** ** Sizes along a search for bytes sets: one more token per round at most *)
Lemma process_slice_set tk x s b s' b' : process_slice tk x s b = Ret (s', b') -> st_token_set s' = st_token_set s.
Proof.
  unfold process_slice. intros H. apply bind_ret in H as ((k & cs) & _ & H). apply bind_ret in H as (s1 & H1 & H).
  apply ret_inj in H. injection H as <- _. unfold update_stats in H1. apply bind_ret in H1 as (lst & _ & H1).
  cbv zeta in H1. apply bind_ret in H1 as ((c1 & c2) & _ & H1). apply bind_ret in H1 as ((c3 & c4) & _ & H1).
  apply ret_inj in H1. subst s1. reflexivity.
Qed.

Lemma sync_set ts (samples : list bstr) init s : tokenize_file_sync ts samples init = Ret s -> st_token_set s = ts.
Proof.
  unfold tokenize_file_sync. intros H. apply bind_ret in H as (tk & _ & H). apply bind_ret in H as ((s1 & b) & H & E).
  apply ret_inj in E. subst s1. unfold process_all in H.
  assert (G : forall l st s' b', mfold (fun sb x => let '(s0, b0) := sb in process_slice tk x s0 b0) l st = Ret (s', b') ->
    st_token_set s' = st_token_set (fst st)).
  { clear. induction l as [|x l IH]; intros (s0 & b0) s' b' H; cbn [mfold] in H.
    - apply ret_inj in H. injection H as <- _. reflexivity.
    - apply bind_ret in H as ((s1 & b1) & H1 & H). rewrite (IH _ _ _ H). cbn [fst]. eapply process_slice_set; exact H1. }
  rewrite (G _ _ _ _ H). reflexivity.
Qed.

Lemma sort_ntokens ts ts' : ts_sort ts = Ret ts' -> ntokens ts' = ntokens ts.
Proof. intros H. unfold ntokens. apply Permutation_length, (sv_tokens _ _ (ts_sort_sorted _ _ H)). Qed.

Lemma answer_ntokens samples init r a : answer samples init r = Ret a -> ntokens (st_token_set a) = ntokens (requested r).
Proof.
  unfold answer. intros H. apply bind_ret in H as (ts' & E1 & H). apply bind_ret in H as (s & E2 & H). apply ret_inj in H.
  rewrite <- (sort_ntokens _ _ E1), <- (sync_set _ _ _ _ E2). subst a. destruct r; reflexivity.
Qed.

Lemma get_stats_out samples init ts a : outcome_of samples init (get_stats ts) = Ret a -> ntokens (st_token_set a) = ntokens ts.
Proof.
  cbn. intros H. destruct (answer samples init (NoPairs ts)) as [x| |] eqn:E; try discriminate. apply ret_inj in H. subst x.
  apply (answer_ntokens _ _ _ _ E).
Qed.
Lemma get_pairs_out samples init ts a : outcome_of samples init (get_stats_with_pairs ts) = Ret a -> ntokens (st_token_set a) = ntokens ts.
Proof.
  cbn. intros H. destruct (answer samples init (WithPairs ts)) as [x| |] eqn:E; try discriminate. apply ret_inj in H. subst x.
  apply (answer_ntokens _ _ _ _ E).
Qed.

Section Bytes.
Variables (samples : list bstr) (init : option nat) (order : smap nat -> list bstr -> list bstr).
Local Notation out := (outcome_of samples init).

Lemma bytes_add ts r : out (opt_add_token noop_bytes ts) = Ret (Some r) -> ntokens r = S (ntokens ts).
Proof.
  unfold opt_add_token. rewrite outcome_bind. intros H. apply bind_ret in H as (s & Es & H). apply get_pairs_out in Es.
  rewrite outcome_bind in H. apply bind_ret in H as (bb & Eb & H). rewrite outcome_bind in H. apply bind_ret in H as (bp & Ep & H).
  cbn [outcome_of pret] in Eb, Ep, H. apply ret_inj in H.
  assert (bb = None).
  { unfold add_byte in Eb. cbv zeta in Eb. apply bind_ret in Eb as (k & _ & Eb). apply bind_ret in Eb as (k2 & _ & Eb).
    apply bind_ret in Eb as (new & En & Eb). unfold noop_bytes in En. apply ret_inj in En. subst new. rewrite Nat.eqb_refl in Eb.
    apply ret_inj in Eb. congruence. }
  subst bb. destruct bp as [(tp & cp)|]; [|discriminate]. injection H as <-.
  unfold add_token_bpe in Ep. cbv zeta in Ep. apply bind_ret in Ep as ((w & c) & _ & Ep). destruct (bstr_eqb w []); [discriminate|].
  apply bind_ret in Ep as ((ts' & i) & Ea & Ep). apply ret_inj in Ep. injection Ep as <- _.
  unfold add_token in Ea. apply bind_ret in Ea as (u & _ & Ea). apply ret_inj in Ea. injection Ea as <- _.
  rewrite <- Es. unfold ntokens, add_token_unchecked; cbn [TokenSetModel.tokens]. rewrite app_length; cbn; lia.
Qed.

Lemma bytes_step ts n rc new rc' : out (optimization_step noop_bytes order ts n rc) = Ret (Some new, rc') ->
  ntokens new <= S (ntokens ts).
Proof.
  unfold optimization_step. rewrite outcome_bind. intros H. apply bind_ret in H as (s & Es & H). apply get_stats_out in Es.
  rewrite outcome_bind in H. apply bind_ret in H as (m & _ & H). rewrite outcome_bind in H. apply bind_ret in H as (b & Eb & H).
  cbn [outcome_of noop_bytes] in Eb. apply ret_inj in Eb. subst b. rewrite outcome_bind in H. apply bind_ret in H as (ns & En & H).
  apply get_stats_out in En. destruct (total_tokens ns <? total_tokens s).
  - cbn [outcome_of pret] in H. apply ret_inj in H. injection H as <- _. lia.
  - rewrite outcome_bind in H. apply bind_ret in H as ((r & rc1) & Er & H). destruct r as [r|].
    + rewrite outcome_bind in H. apply bind_ret in H as (u & Ea & H). cbn [outcome_of] in Ea. apply assert_ret in Ea. apply Nat.leb_le in Ea.
      cbn [outcome_of pret] in H. apply ret_inj in H. injection H as <- _.
      unfold remove_add_token in Er. destruct (Nat.ltb_spec (ntokens ts) n) as [Hlt|Hge]; [|lia].
      rewrite outcome_bind in Er. apply bind_ret in Er as (ad & Ead & Er). destruct ad as [ad|].
      * rewrite outcome_bind in Er. apply bind_ret in Er as (s2 & E2 & Er). apply get_stats_out in E2.
        cbn [outcome_of pret] in Er. apply ret_inj in Er. injection Er as <- _. apply bytes_add in Ead. lia.
      * cbn [outcome_of pret] in Er. apply ret_inj in Er. discriminate.
    + cbn [outcome_of pret] in H. apply ret_inj in H. discriminate.
Qed.

Lemma saves_bind {A B} (m : prog A) (f : A -> prog B) a : out m = Ret a ->
  saves_of samples init (pbind m f) = saves_of samples init m ++ saves_of samples init (f a).
Proof.
  induction m as [o|r k IH|ts k IH]; cbn; intros H.
  - subst o. reflexivity.
  - destruct (answer samples init r); [apply IH; exact H|discriminate..].
  - rewrite (IH H). reflexivity.
Qed.

(** If every round saves, there is a saved set of every size up to the last. *)
Lemma bytes_sizes fuel : forall round ts n rc last,
  out (optimize_loop noop_bytes order (fun _ => true) fuel round ts n rc) = Ret last ->
  forall k, ntokens ts < k <= ntokens last ->
  exists x, In x (saves_of samples init (optimize_loop noop_bytes order (fun _ => true) fuel round ts n rc)) /\ ntokens x = k.
Proof.
  induction fuel as [|fuel IH]; intros round ts n rc last H k Hk; [discriminate|]. cbn [optimize_loop] in *.
  rewrite outcome_bind in H. apply bind_ret in H as ((r & rc1) & Er & H). rewrite (saves_bind _ _ _ Er). destruct r as [new|].
  - cbn [outcome_of saves_of] in *. pose proof (bytes_step _ _ _ _ _ Er) as Hs.
    destruct (Nat.eq_dec k (ntokens new)) as [->|Hne].
    + exists new. split; [apply in_app_iff; right; left; reflexivity|reflexivity].
    + destruct (IH _ _ _ _ _ H k) as (x & Hx & Ex); [lia|]. exists x. split; [apply in_app_iff; right; right; exact Hx|exact Ex].
  - cbn in H. apply ret_inj in H. subst last. lia.
Qed.
End Bytes.

Lemma new_bytes_ntokens p : ntokens (new_bytes p) = 256.
Proof. destruct (visited_bytes p) as (_ & B & L). rewrite base_ntokens, B, L. reflexivity. Qed.

(** ** Samples of the command optimize *)
Lemma optimize_samples_ok reads raw data (samples : list bstr) :
  (forall pos, read_ok data (N.to_nat large) pos (reads pos)) -> optimize_samples reads raw data = Ret samples ->
  ~ In [] samples /\ length (concat samples) <= 3 * length data.
Proof.
  intros Hr. unfold optimize_samples. destruct (_ <? _)%N.
  - assert (Hm : 0 < N.to_nat mega) by (unfold mega; lia). unfold memory_samples. intros H.
    apply bind_ret in H as (l & E & H). apply ret_inj in H. subst samples.
    destruct (C26_memory_sampler_covers_data _ _ _ _ Hm E) as (Ec & Hne & _). split.
    + intros Hi. apply in_map_iff in Hi as (x & Ex & Hx). apply (lossy_nonempty x); [apply (Hne x Hx)|exact Ex].
    + rewrite <- Ec. clear. induction l as [|x l IH]; cbn [map concat]; [cbn; lia|]. rewrite !app_length. pose proof (lossy_length x). lia.
  - intros H. unfold full_samples in H.
    destruct (C28_file_read_exactly_once reads data (N.to_nat large) (S (length data))) as [Hp|(l & El & C & Hne)].
    + unfold large. lia.
    + exact Hr.
    + lia.
    + congruence.
    + rewrite H in El. apply ret_inj in El. subst l. split; [exact Hne|]. rewrite C. lia.
Qed.

(** ** A supported run of the command

    The data to tokenize is [data]; a starting set, if given, is one the program could have
    made for this type and processing. *)
Record run_setup (threads rounds n : nat) (p : processing) (t : token_type) order (reads : nat -> nat) (data : bstr) (input : option bstr) : Prop := {
  rs_threads : 1 <= threads;
  rs_order : shuffles order;
  rs_target : supported t n;
  rs_rounds : let b := 258 * (3 * length data) in S (n * S b + b) <= rounds;
  rs_reads : forall pos, read_ok data (N.to_nat large) pos (reads pos);
  rs_input : forall ts, input_set input = Ret (Some ts) -> good_start n p t (Some ts)
}.

Lemma run_facts U script threads reads order clock rounds n p t raw processed input data m :
  run_setup threads rounds n p t order reads data input -> maybe_process U script raw processed p = Ret data ->
  optimize_run U script threads reads order clock rounds n p t raw processed input m ->
  exists pre (samples : list bstr), input_set input = Ret pre /\ good_start n p t pre /\ optimize_samples reads raw data = Ret samples /\
    ~ In [] samples /\ round_bound samples n <= rounds /\
    optimizing threads (full_size data) samples (Some (length raw)) order clock n p t pre rounds m.
Proof.
  intros [H1 H2 H3 H4 H5 H6] Ed H. destruct H as [data' pre samples m E1 E2 E3 Hst].
  rewrite Ed in E1. apply ret_inj in E1. subst data'. exists pre, samples.
  destruct (optimize_samples_ok _ _ _ _ H5 E3) as (Hne & Hl).
  split; [exact E2|]. split; [destruct pre as [ts|]; [apply H6, E2|exact I]|]. split; [exact E3|]. split; [exact Hne|].
  split; [|exact Hst]. revert Hl. eapply bound_ok; eassumption.
Qed.

(** ** Files seen from outside *)
Lemma put_files_app ws : forall d ws', put_files d (ws ++ ws') = put_files (put_files d ws) ws'.
Proof. induction ws as [|(nm, tx) ws IH]; intros d ws'; cbn; [reflexivity|apply IH]. Qed.

Lemma put_files_at ws : forall d name, put_files d ws name = d name \/ exists text, In (name, text) ws /\ put_files d ws name = Some text.
Proof.
  induction ws as [|(nm, tx) ws IH]; intros d name; cbn [put_files]; [auto|].
  destruct (IH (put_file d nm tx) name) as [E|(text & Hi & E)].
  - rewrite E. unfold put_file. destruct (String.eqb_spec name nm) as [->|Hn]; [|auto].
    right. exists tx. split; [left; reflexivity|reflexivity].
  - right. exists text. split; [right; exact Hi|exact E].
Qed.

Lemma put_files_in ws d name : (exists text, In (name, text) ws) -> exists text, In (name, text) ws /\ put_files d ws name = Some text.
Proof.
  revert d. induction ws as [|(nm, tx) ws IH]; intros d (text & Hi); [destruct Hi|]. cbn [put_files].
  destruct (put_files_at ws (put_file d nm tx) name) as [E|(t2 & Hi2 & E)].
  - destruct Hi as [Hi|Hi].
    + injection Hi as -> ->. exists text. split; [left; reflexivity|]. rewrite E. unfold put_file. rewrite String.eqb_refl. reflexivity.
    + destruct (IH (put_file d nm tx)) as (t2 & Hi2 & E2); [eauto|]. exists t2. split; [right; exact Hi2|exact E2].
  - exists t2. split; [right; exact Hi2|exact E].
Qed.

Lemma during_writes_changed d ws d' name : during_writes d ws d' -> d' name <> d name ->
  exists text k, In (name, text) ws /\ d' name = Some (firstn k text).
Proof.
  assert (G : forall done, put_files d done name <> d name -> exists text k, In (name, text) done /\ put_files d done name = Some (firstn k text)).
  { intros done Hn. destruct (put_files_at done d name) as [E|(text & Hi & E)]; [congruence|].
    exists text, (length text). rewrite firstn_all. auto. }
  intros H. destruct H as [done rest ->|done nm tx rest d' -> Hw]; intros Hn.
  - destruct (G _ Hn) as (text & k & Hi & E). exists text, k. split; [apply in_app_iff; auto|exact E].
  - destruct Hw as [|k Hk].
    + destruct (G _ Hn) as (text & k & Hi & E). exists text, k. split; [apply in_app_iff; auto|exact E].
    + unfold put_file in *. destruct (String.eqb_spec name nm) as [->|Hx].
      * exists tx, k. split; [apply in_app_iff; right; left; reflexivity|reflexivity].
      * destruct (G _ Hn) as (text & k' & Hi & E). exists text, k'. split; [apply in_app_iff; auto|exact E].
Qed.

Lemma set_text_total ts ss : shaped ts ss -> exists text, set_text ts = Ret text.
Proof. intros S. destruct (to_json_fields ts ss S) as (js & _ & E). unfold set_text. rewrite E. cbn [bind]. eauto. Qed.
Lemma stats_text_total ratio s ss : shaped (st_token_set s) ss -> exists text, stats_text ratio s = Ret text.
Proof. intros S. destruct (to_json_fields _ ss S) as (js & _ & E). unfold stats_text, stats_to_json. rewrite E. cbn [bind]. eauto. Qed.

Lemma saved_texts (l : list tokenset) : (forall ts, In ts l -> exists ss, shaped ts ss) ->
  exists ws, mmap (fun ts => text <- set_text ts ;; Ret (file_name ts, text)) l = Ret ws /\
  Forall2 (fun ts w => fst w = file_name ts /\ set_text ts = Ret (snd w)) l ws.
Proof.
  induction l as [|ts l IH]; intros H; [exists []; split; [reflexivity|constructor]|].
  destruct (H ts (or_introl eq_refl)) as (ss & S). destruct (set_text_total _ _ S) as (text & E).
  destruct IH as (ws & Ew & F); [intros x Hx; apply H; right; exact Hx|].
  exists ((file_name ts, text) :: ws). cbn [mmap]. rewrite E. cbn [bind]. rewrite Ew. split; [reflexivity|].
  constructor; [split; [reflexivity|exact E]|exact F].
Qed.

Lemma file_name_eq a b : ntokens a = ntokens b -> ts_processing a = ts_processing b -> ts_type a = ts_type b -> file_name a = file_name b.
Proof. intros H1 H2 H3. unfold file_name, ts_name. rewrite H1, H2, H3. reflexivity. Qed.

(** The files a search writes: one per saved set, and the result's at the end. *)
Lemma written_facts ratio (m : machine stats) : (forall ts, In ts (m_saved m) -> exists ss, shaped ts ss) ->
  (forall s, returned m s -> exists ss, shaped (st_token_set s) ss) ->
  exists saved ws, written ratio m = Ret ws /\
    Forall2 (fun ts w => fst w = file_name ts /\ set_text ts = Ret (snd w)) (m_saved m) saved /\
    ((forall s, ~ returned m s) /\ ws = saved \/
     exists s text, returned m s /\ stats_text ratio s = Ret text /\ ws = saved ++ [(file_name (st_token_set s), text)]).
Proof.
  intros H1 H2. destruct (saved_texts _ H1) as (saved & E & F). exists saved. unfold written. rewrite E. cbn [bind].
  destruct (m_prog m) as [[s| |]|r k|ts k] eqn:Em; try (exists saved; split; [reflexivity|]; split; [exact F|]; left; split; [intros s0 Hr; unfold returned in Hr; congruence|reflexivity]).
  destruct (H2 s Em) as (ss & S). destruct (stats_text_total ratio s ss S) as (text & Et). rewrite Et. cbn [bind].
  eexists. split; [reflexivity|]. split; [exact F|]. right. exists s, text. split; [exact Em|]. split; [exact Et|reflexivity].
Qed.

Lemma Forall2_in_r {A B} (R : A -> B -> Prop) l l' y : Forall2 R l l' -> In y l' -> exists x, In x l /\ R x y.
Proof.
  induction 1 as [|a b l l' H _ IH]; [intros []|]. intros [<-|Hi]; [exists a; split; [left; reflexivity|exact H]|].
  destruct (IH Hi) as (x & Hx & HR). exists x. split; [right; exact Hx|exact HR].
Qed.
Lemma Forall2_in_l {A B} (R : A -> B -> Prop) l l' x : Forall2 R l l' -> In x l -> exists y, In y l' /\ R x y.
Proof.
  induction 1 as [|a b l l' H _ IH]; [intros []|]. intros [<-|Hi]; [exists b; split; [left; reflexivity|exact H]|].
  destruct (IH Hi) as (y & Hy & HR). exists y. split; [right; exact Hy|exact HR].
Qed.

(** What [text] is: a set, or the result with its statistics. *)
Definition describes (ratio : nat -> nat -> bstr) (m : machine stats) (ts : tokenset) (text : bstr) : Prop :=
  In ts (m_saved m) /\ set_text ts = Ret text \/
  exists s, returned m s /\ st_token_set s = ts /\ stats_text ratio s = Ret text.

Lemma written_describes ratio m ws name text : written ratio m = Ret ws ->
  (forall ts, In ts (m_saved m) -> exists ss, shaped ts ss) -> (forall s, returned m s -> exists ss, shaped (st_token_set s) ss) ->
  In (name, text) ws -> exists ts, name = file_name ts /\ describes ratio m ts text.
Proof.
  intros E H1 H2 Hi. destruct (written_facts ratio m H1 H2) as (saved & ws' & E' & F & K). rewrite E in E'. apply ret_inj in E'. subst ws'.
  assert (G : In (name, text) saved -> exists ts, name = file_name ts /\ describes ratio m ts text).
  { intros Hs. destruct (Forall2_in_r _ _ _ _ F Hs) as (ts & Ht & (En & Et)). cbn [fst snd] in *. exists ts. split; [exact En|]. left. auto. }
  destruct K as [(_ & ->)|(s & tx & Hr & Et & ->)]; [auto|].
  apply in_app_iff in Hi as [Hi|[Hi|[]]]; [auto|]. injection Hi as <- <-. exists (st_token_set s). split; [reflexivity|]. right. eauto.
Qed.

Lemma append_length (a b : string) : String.length (a ++ b) = String.length a + String.length b.
Proof. induction a as [|c a IH]; cbn; [reflexivity|rewrite IH; reflexivity]. Qed.

(** ** C59 *)

(** At any moment of a supported run, every file that differs from what it was is named after
    a set within the budget, of the requested type and processing, and holds the
    text of this set or a beginning of it; after the end the result's file is complete. *)
Theorem C59_only_requested_file_partial :
  forall U script threads ratio reads order clock rounds n p t raw processed input data m,
  run_setup threads rounds n p t order reads data input -> maybe_process U script raw processed p = Ret data ->
  optimize_run U script threads reads order clock rounds n p t raw processed input m ->
  exists ws, written ratio m = Ret ws /\
  (forall d d' name, during_writes d ws d' -> d' name <> d name ->
     exists ts text k, good_result n p t ts /\ name = file_name ts /\ describes ratio m ts text /\ d' name = Some (firstn k text)) /\
  (forall d s, returned m s -> exists text, stats_text ratio s = Ret text /\ put_files d ws (file_name (st_token_set s)) = Some text).
Proof.
  intros U script threads ratio reads order clock rounds n p t raw processed input data m Hs Ed Hm.
  destruct (run_facts _ _ _ _ _ _ _ _ _ _ _ _ _ _ _ Hs Ed Hm) as (pre & samples & Ei & Gp & Es & Hne & Hr & Ho).
  destruct (C44_result_within_budget _ _ _ _ _ _ _ _ _ _ _ _ (rs_threads _ _ _ _ _ _ _ _ _ Hs) Hne (rs_order _ _ _ _ _ _ _ _ _ Hs) (rs_target _ _ _ _ _ _ _ _ _ Hs) Gp Hr Ho) as (G1 & G2).
  assert (S1 : forall ts, In ts (m_saved m) -> exists ss, shaped ts ss) by (intros ts Hi; apply (G1 ts Hi)).
  assert (S2 : forall s, returned m s -> exists ss, shaped (st_token_set s) ss) by (intros s Hi; apply (G2 s Hi)).
  destruct (written_facts ratio m S1 S2) as (saved & ws & E & F & K). exists ws. split; [exact E|]. split.
  - intros d d' name Hw Hn. destruct (during_writes_changed _ _ _ _ Hw Hn) as (text & k & Hi & Ek).
    destruct (written_describes _ _ _ _ _ E S1 S2 Hi) as (ts & En & D). exists ts, text, k.
    split; [|auto]. destruct D as [(Hi' & _)|(s & Hr' & <- & _)]; [apply (G1 ts Hi')|apply (G2 s Hr')].
  - intros d s Hret. destruct K as [(Hno & _)|(s' & text & Hret' & Et & ->)]; [destruct (Hno s Hret)|].
    assert (s' = s) by (unfold returned in *; congruence). subst s'. exists text. split; [exact Et|].
    rewrite put_files_app. cbn [put_files]. unfold put_file. rewrite String.eqb_refl. reflexivity.
Qed.

(** The run may touch more than the file for the requested size: if a minute passes in
    every round, a search for bytes sets from scratch overwrites the files of all sizes from
    257 up to the size of its result. *)
Theorem C59_only_requested_file_refuted :
  forall U script threads ratio reads order rounds n p raw processed data m s ws d k,
  run_setup threads rounds n p Bytes order reads data None -> maybe_process U script raw processed p = Ret data ->
  optimize_run U script threads reads order (fun _ => true) rounds n p Bytes raw processed None m ->
  returned m s -> written ratio m = Ret ws -> 256 < k <= ntokens (st_token_set s) ->
  exists ts text, put_files d ws ("tokens" ++ show_nat k ++ "_" ++ processing_name p ++ "_bytes.json")%string = Some text /\
    ntokens ts = k /\ describes ratio m ts text.
Proof.
  intros U script threads ratio reads order rounds n p raw processed data m s ws d k Hs Ed Hm Hret Ew Hk.
  destruct (run_facts _ _ _ _ _ _ _ _ _ _ _ _ _ _ _ Hs Ed Hm) as (pre & samples & Ei & Gp & Es & Hne & Hr & Ho).
  cbn in Ei. apply ret_inj in Ei. subst pre.
  pose proof (rs_threads _ _ _ _ _ _ _ _ _ Hs) as Ht. pose proof (rs_order _ _ _ _ _ _ _ _ _ Hs) as Hsh. pose proof (rs_target _ _ _ _ _ _ _ _ _ Hs) as Hsup.
  destruct (C44_result_within_budget _ _ _ _ _ _ _ _ _ _ _ _ Ht Hne Hsh Hsup Gp Hr Ho) as (G1 & G2).
  assert (S1 : forall ts, In ts (m_saved m) -> exists ss, shaped ts ss) by (intros ts Hi; apply (G1 ts Hi)).
  assert (S2 : forall s, returned m s -> exists ss, shaped (st_token_set s) ss) by (intros s0 Hi; apply (G2 s0 Hi)).
  assert (K : exists x, In x (m_saved m) /\ ntokens x = k).
  { destruct (returned_outcome _ _ _ _ _ _ _ _ _ _ _ _ _ Ht Hsh Hsup Gp Hr Ho Hret) as (E1 & E2). rewrite E2.
    unfold optimize_tokenset in *. cbn [initial_set pbind pret optimizer_for] in *.
    pose proof (new_bytes_ntokens p) as Nb. revert E1 Nb. generalize (new_bytes p). intros ts0 E1 Nb.
    unfold optimize_impl in *. rewrite outcome_bind in E1. apply bind_ret in E1 as (s0 & Es0 & E1).
    rewrite outcome_bind in E1. apply bind_ret in E1 as (last & El & E1). rewrite outcome_bind in E1. apply bind_ret in E1 as (ls & Els & E1).
    cbn [outcome_of] in Els. apply get_stats_out in E1. rewrite (sort_ntokens _ _ Els) in E1.
    rewrite (saves_bind _ _ _ _ _ Es0), (saves_bind _ _ _ _ _ El).
    destruct (bytes_sizes _ _ _ _ _ _ _ _ _ El k) as (x & Hx & Ex); [lia|]. exists x. split; [|exact Ex].
    apply in_app_iff; right. apply in_app_iff; left. exact Hx. }
  destruct K as (x & Hx & Ex). destruct (G1 x Hx) as ((_ & _ & _ & Tx & Px) & _).
  assert (En : file_name x = ("tokens" ++ show_nat k ++ "_" ++ processing_name p ++ "_bytes.json")%string).
  { unfold file_name, ts_name. rewrite Ex, Tx, Px.
    assert (A : forall a b c : string, ((a ++ b) ++ c = a ++ (b ++ c))%string) by (clear; induction a as [|ch a IH]; intros b c; cbn; [reflexivity|rewrite IH; reflexivity]).
    rewrite !A. reflexivity. }
  rewrite <- En. clear En.
  assert (Hin : exists text, In (file_name x, text) ws).
  { destruct (written_facts ratio m S1 S2) as (saved & ws' & E & F & K). rewrite Ew in E. apply ret_inj in E. subst ws'.
    destruct (Forall2_in_l _ _ _ _ F Hx) as ((nm & tx) & Hw & (En & _)). cbn [fst] in En. subst nm. exists tx.
    destruct K as [(_ & ->)|(s' & text & _ & _ & ->)]; [exact Hw|apply in_app_iff; left; exact Hw]. }
  destruct (put_files_in ws d _ Hin) as (text & Hi & E). destruct (written_describes _ _ _ _ _ Ew S1 S2 Hi) as (ts & En & D).
  exists ts, text. split; [exact E|]. split; [|exact D].
  assert (G : good_result n p Bytes ts) by (destruct D as [(Hi' & _)|(s' & Hr' & <- & _)]; [apply (G1 ts Hi')|apply (G2 s' Hr')]).
  destruct G as (_ & _ & _ & Tt & Pt). unfold file_name in En.
  assert (Inj : forall a b c : string, (a ++ c = b ++ c)%string -> a = b).
  { clear. intros a b c H. revert b H. induction a as [|ch a IH]; intros [|ch' b] H; cbn in H.
    - reflexivity.
    - exfalso. apply (f_equal String.length) in H. cbn in H. rewrite append_length in H. lia.
    - exfalso. apply (f_equal String.length) in H. cbn in H. rewrite append_length in H. lia.
    - injection H as -> H. f_equal. exact (IH _ H). }
  apply Inj in En. apply C25_name_identifies in En as (En & _). lia.
Qed.

(** A run as in the theorem, with a requested size of 300 and data of two
    bytes: the file for 257 tokens is written. *)
Lemma small_samples chunk : 2 <= chunk -> memory_samples 3 [x61; x62] chunk = Ret [[x61; x62]].
Proof.
  intros H. unfold memory_samples, memory_slices, memory_next. cbn [length].
  change (0 <? 2) with true. cbv iota. replace (Nat.min (0 + chunk) 2) with 2 by lia. reflexivity.
Qed.

Example C59_hypotheses_met : exists U script reads order rounds m s ws,
  run_setup 4 rounds 300 Raw Bytes order reads [x61; x62] None /\
  maybe_process U script [x61; x62] None Raw = Ret [x61; x62] /\
  optimize_run U script 4 reads order (fun _ => true) rounds 300 Raw Bytes [x61; x62] None None m /\
  returned m s /\ written (fun _ _ => lit "0.5") m = Ret ws /\ 257 <= ntokens (st_token_set s).
Proof.
  assert (Hsh : shuffles (fun _ l => l)) by (intros m l; reflexivity).
  set (reads := fun pos => Nat.min (N.to_nat large) (2 - pos)).
  set (rounds := let b := 258 * (3 * 2) in S (300 * S b + b)).
  assert (G : supported Bytes 300) by (split; [apply Nat.leb_le; reflexivity|exact I]).
  assert (Hs : run_setup 4 rounds 300 Raw Bytes (fun _ l => l) reads [x61; x62] None).
  { split.
    - repeat constructor.
    - exact Hsh.
    - exact G.
    - apply le_n.
    - intros pos. unfold read_ok, reads. cbn [length]. split; [apply le_n|auto].
    - intros ts H. discriminate. }
  assert (Es : optimize_samples reads [x61; x62] [x61; x62] = Ret [[x61; x62]]).
  { unfold optimize_samples. cbn [length]. replace (_ <? _)%N with true by (symmetry; apply N.ltb_lt; reflexivity).
    apply small_samples. unfold mega. lia. }
  assert (Hne : ~ In [] [[x61; x62]]) by (intros [H|[]]; discriminate).
  assert (Hr : round_bound [[x61; x62]] 300 <= rounds).
  { unfold rounds, round_bound. cbn [concat app length]. cbv zeta.
    assert (B : 258 * 2 <= 258 * (3 * 2)) by lia. revert B. generalize (258 * 2) (258 * (3 * 2)). intros a b B.
    apply le_n_S, Nat.add_le_mono; [apply Nat.mul_le_mono_l; lia|exact B]. }
  clearbody rounds reads.
  destruct (proj1 (C43_optimization_never_panics_partial 4 (full_size [x61; x62]) [[x61; x62]] (Some (length [x61; x62]))
    (fun _ l => l) (fun _ => true) 300 Raw Bytes None rounds (rs_threads _ _ _ _ _ _ _ _ _ Hs) Hne Hsh G I Hr)) as (m & s & M & R).
  set (U := Build_unicode (fun _ => false) (fun _ => false) (fun _ => false) (fun c => [c]) (fun _ => false) (fun _ => false)).
  assert (Hm : optimize_run U [] 4 reads (fun _ l => l) (fun _ => true) rounds 300 Raw Bytes [x61; x62] None None m).
  { econstructor; [reflexivity|reflexivity|exact Es|exact M]. }
  destruct (C59_only_requested_file_partial U [] 4 (fun _ _ => lit "0.5") reads _ _ rounds 300 Raw Bytes [x61; x62] None None [x61; x62] m Hs eq_refl Hm) as (ws & Ew & _).
  exists U, [], reads, (fun _ l => l), rounds, m, s, ws.
  split; [exact Hs|]. split; [reflexivity|]. split; [exact Hm|]. split; [exact R|]. split; [exact Ew|].
  destruct (C54_budget_used_up 4 _ _ _ _ _ 300 Raw Bytes None rounds m s (rs_threads _ _ _ _ _ _ _ _ _ Hs) Hne Hsh G I Hr M R) as [E|(_ & _ & _ & H & _)].
  - rewrite E. apply Nat.leb_le. reflexivity.
  - specialize (H eq_refl _ (or_introl eq_refl)).
    destruct (C44_result_within_budget 4 _ _ _ _ _ 300 Raw Bytes None rounds m (rs_threads _ _ _ _ _ _ _ _ _ Hs) Hne Hsh G I Hr M) as (_ & K).
    destruct (K s R) as (_ & (sp & V & _) & _). revert H V. generalize (st_token_set s). intros ts H V.
    rewrite base_ntokens. pose proof (base_range _ _ _ _ V) as (B & _). change (lo Bytes) with 256 in B.
    assert (L : 1 <= n_long_tokens ts); [|lia]. unfold n_long_tokens. clear - H.
    induction (TokenSetModel.tokens ts) as [|x l IH]; [destruct H|]. cbn [filter]. destruct H as [->|H]; [cbn; lia|].
    specialize (IH H). destruct (is_long x); cbn [length]; lia.
Qed.

(** ** C61: type and processing of the result *)

(** With a starting set of another processing, or, for bits, another type, the result is
    of the starting set's kind, not of the requested one. *)
Theorem C61_requested_kind_refuted :
  forall U script threads reads order clock rounds n p t raw processed input data ts0 p0 t0 m s,
  1 <= threads -> shuffles order -> supported t0 n -> (let b := 258 * (3 * length data) in S (n * S b + b) <= rounds) ->
  (forall pos, read_ok data (N.to_nat large) pos (reads pos)) ->
  maybe_process U script raw processed p = Ret data ->
  input_set input = Ret (Some ts0) -> good_start n p0 t0 (Some ts0) ->
  (t = t0 \/ is_bits t /\ is_bits t0) ->
  optimize_run U script threads reads order clock rounds n p t raw processed input m -> returned m s ->
  ts_processing (st_token_set s) = p0 /\ ts_type (st_token_set s) = t0.
Proof.
  intros U script threads reads order clock rounds n p t raw processed input data ts0 p0 t0 m s Ht Ho Hs Hr Hrd Ed Ei Gs Htt Hm Hret.
  destruct Hm as [data' pre samples m E1 E2 E3 Hst].
  rewrite Ed in E1. apply ret_inj in E1. subst data'. rewrite Ei in E2. apply ret_inj in E2. subst pre.
  destruct (optimize_samples_ok _ _ _ _ Hrd E3) as (Hne & Hl).
  assert (Hb : round_bound samples n <= rounds) by (revert Hl; eapply bound_ok; eassumption).
  assert (Eo : optimizer_for t = optimizer_for t0).
  { destruct Htt as [->|(H1 & H2)]; [reflexivity|]. destruct H1 as [->|[->| ->]], H2 as [->|[->| ->]]; reflexivity. }
  assert (Ep : optimize_tokenset order clock rounds n p t (Some ts0) = optimize_tokenset order clock rounds n p0 t0 (Some ts0)).
  { unfold optimize_tokenset. cbn [initial_set pbind pret]. rewrite Eo. reflexivity. }
  rewrite Ep in Hst.
  destruct (C44_result_within_budget _ _ _ _ _ _ _ _ _ _ _ _ Ht Hne Ho Hs Gs Hb Hst) as (_ & K).
  destruct (K s Hret) as ((_ & _ & _ & H1 & H2) & _). auto.
Qed.

(** Without a starting set, or with one of the requested kind, the result is of the requested
    kind. *)
Theorem C61_requested_kind_partial :
  forall U script threads reads order clock rounds n p t raw processed input data m,
  run_setup threads rounds n p t order reads data input -> maybe_process U script raw processed p = Ret data ->
  optimize_run U script threads reads order clock rounds n p t raw processed input m ->
  (forall ts, In ts (m_saved m) -> good_result n p t ts) /\ (forall s, returned m s -> good_result n p t (st_token_set s)).
Proof.
  intros U script threads reads order clock rounds n p t raw processed input data m Hs Ed Hm.
  destruct (run_facts _ _ _ _ _ _ _ _ _ _ _ _ _ _ _ Hs Ed Hm) as (pre & samples & Ei & Gp & Es & Hne & Hr & Ho).
  destruct (C44_result_within_budget _ _ _ _ _ _ _ _ _ _ _ _ (rs_threads _ _ _ _ _ _ _ _ _ Hs) Hne (rs_order _ _ _ _ _ _ _ _ _ Hs) (rs_target _ _ _ _ _ _ _ _ _ Hs) Gp Hr Ho) as (G1 & G2).
  split; [intros ts Hi; apply (G1 ts Hi)|intros s Hi; apply (G2 s Hi)].
Qed.

(** ** C63: resuming from a file *)
(** Reloading changes only the paragraph flag. *)
Lemma reloaded_flag t ts ss : shaped ts ss -> ts_type ts = t -> (t = Bytes \/ t = BytesHuff \/ forall b : byte, In (Str [b]) (TokenSetModel.tokens ts)) ->
  reloaded ts ss = mkTS (n_ext_tokens ts) (ts_type ts) (ts_processing ts) false (TokenSetModel.tokens ts) (sequences ts).
Proof.
  intros S Hty Ht. unfold reloaded. f_equal. rewrite Hty.
  assert (Enil : filter (fun q => negb (existsb (bstr_eqb (seq_string q)) ss)) (fallback_seqs t) = []); [|rewrite Enil; reflexivity].
  destruct Ht as [->|[->|Hall]]; [reflexivity..|].
  assert (Hd : (t = Bytes \/ t = BytesHuff) \/ (t = Bits1 \/ t = Bits2 \/ t = Bits4)) by (clear; destruct t; auto).
  destruct Hd as [[->| ->]|Hd]; [reflexivity..|].
  change (drop_shadowed ss (fallback_seqs t) = []).
  destruct (drop_shadowed ss (fallback_seqs t)) as [|q l] eqn:Ed; [reflexivity|exfalso].
  assert (Hq : In q (drop_shadowed ss (fallback_seqs t))) by (rewrite Ed; left; reflexivity).
  apply in_drop_shadowed in Hq as (Hq & Hn). apply Hn.
  assert (Hs : In (seq_string q) (map seq_string (fallback_seqs t))) by (apply in_map; exact Hq).
  apply (fallback_strings _ _ Hd) in Hs as (b & ->). specialize (Hall b). apply in_str_tokens in Hall.
  rewrite (shaped_str_tokens _ _ S) in Hall. exact Hall.
Qed.

Lemma reloaded_start n p t ts ss : shaped ts ss -> (t = Bytes \/ t = BytesHuff \/ forall b : byte, In (Str [b]) (TokenSetModel.tokens ts)) ->
  good_start n p t (Some ts) -> good_start n p t (Some (reloaded ts ss)).
Proof.
  intros S Ht (sp & V & Hn). exists false. rewrite (reloaded_flag t ts ss S (vi_type _ _ _ _ V) Ht). clear Ht.
  destruct V as [V1 V2 V3 V4 V5 V6 V7]. destruct ts as [ne ty pr sp0 toks seqs]. cbn in *.
  split; [split|exact Hn]; try assumption.
  - exists ss. destruct S as [A1 A2 A3 A4 A5 A6]. split; assumption.
  - reflexivity.
Qed.

Lemma segments_eq a b ps x : TokenSetModel.tokens a = TokenSetModel.tokens b -> sequences a = sequences b -> segments a ps x -> segments b ps x.
Proof.
  intros E1 E2. induction 1 as [|q ps s r Hq _ IH]; [constructor|]. constructor; [|exact IH].
  rewrite <- Hq. unfold piece_string. rewrite E1, E2. reflexivity.
Qed.

Lemma stream_eq a b ps : sequences a = sequences b -> stream a ps = stream b ps.
Proof.
  intros E. unfold stream. apply flat_map_ext. intros q. unfold piece_tokens. rewrite E. reflexivity.
Qed.

Lemma min_total_eq a b (samples : list bstr) N : TokenSetModel.tokens a = TokenSetModel.tokens b -> sequences a = sequences b ->
  min_total a samples N -> min_total b samples N.
Proof.
  intros E1 E2 (ns & F & ->). exists ns. split; [|reflexivity]. eapply Forall2_impl; [|exact F].
  intros x k (ps & (Hs & Hm) & ->). exists ps. split; [split|].
  - eapply segments_eq; [exact E1|exact E2|exact Hs].
  - intros qs Hq. rewrite <- !(stream_eq a b) by exact E2. apply Hm. eapply segments_eq; [symmetry; exact E1|symmetry; exact E2|exact Hq].
  - rewrite (stream_eq a b) by exact E2. reflexivity.
Qed.

Lemma reloaded_total t ts ss (samples : list bstr) N : shaped ts ss -> ts_type ts = t ->
  (t = Bytes \/ t = BytesHuff \/ forall b : byte, In (Str [b]) (TokenSetModel.tokens ts)) ->
  min_total ts samples N <-> min_total (reloaded ts ss) samples N.
Proof.
  intros S Hty Ht. rewrite (reloaded_flag t ts ss S Hty Ht). split; apply min_total_eq; auto.
Qed.

(** Any complete file a run has written, at any moment, is a good starting set
    for a further run of the same kind, which then returns, and the result needs
    no more tokens than the set in the file (for byteshuff: if the first run
    started from scratch, or if no byte can be added to the set in the file);
    except for bits sets in which some
    byte is not a token (for these see the next theorem). *)
Theorem C63_resume_partial :
  forall U script threads ratio reads order clock rounds n p t raw processed input data m ts text,
  run_setup threads rounds n p t order reads data input -> maybe_process U script raw processed p = Ret data ->
  (exists samples, optimize_samples reads raw data = Ret samples) ->
  optimize_run U script threads reads order clock rounds n p t raw processed input m -> (forall s, returned m s -> writable ratio s) ->
  describes ratio m ts text ->
  t = Bytes \/ t = BytesHuff \/ (forall b : byte, In (Str [b]) (TokenSetModel.tokens ts)) ->
  run_setup threads rounds n p t order reads data (Some text) /\
  (exists m' s', optimize_run U script threads reads order clock rounds n p t raw processed (Some text) m' /\ returned m' s') /\
  (forall m', optimize_run U script threads reads order clock rounds n p t raw processed (Some text) m' ->
     ~ panicked m' /\
     (t <> BytesHuff \/ input = None \/ no_room n ts -> forall s', returned m' s' -> forall samples N, optimize_samples reads raw data = Ret samples ->
        min_total ts samples N -> total_tokens s' <= N)).
Proof.
  intros U script threads ratio reads order clock rounds n p t raw processed input data m ts text Hs Ed Hsam Hm Hw Hd Ht.
  destruct (run_facts _ _ _ _ _ _ _ _ _ _ _ _ _ _ _ Hs Ed Hm) as (pre & samples & Ei & Gp & Es & Hne & Hr & Ho).
  pose proof (rs_threads _ _ _ _ _ _ _ _ _ Hs) as Hth. pose proof (rs_order _ _ _ _ _ _ _ _ _ Hs) as Hor. pose proof (rs_target _ _ _ _ _ _ _ _ _ Hs) as Hsup.
  destruct (C44_result_within_budget _ _ _ _ _ _ _ _ _ _ _ _ Hth Hne Hor Hsup Gp Hr Ho) as (G1 & G2).
  assert (K : good_result n p t ts /\ good_start n p t (Some ts)).
  { destruct Hd as [(Hi & _)|(s & Hret & <- & _)]; [apply (G1 ts Hi)|destruct (G2 s Hret) as (A & B & _); split; assumption]. }
  destruct K as ((_ & (ss & S) & _ & Hty & _) & Gs).
  assert (R : read_token_set text = Ret (reloaded ts ss)).
  { destruct Hd as [(_ & Et)|(s & Hret & <- & Et)].
    - destruct (C22_round_trip_partial ts ss S) as ((j & Ej & Lj) & _). destruct (jwf_ts _ _ Ej) as (fs & -> & W & D & _).
      unfold set_text in Et. rewrite Ej in Et. cbn [bind] in Et. apply ret_inj in Et. subst text.
      unfold read_token_set. rewrite parse_show by (assumption || lia). exact Lj.
    - destruct (C56_files_read_back_partial ratio s ss S (Hw s Hret)) as (t1 & t2 & _ & E2 & _ & L).
      rewrite Et in E2. apply ret_inj in E2. subst t2. exact L. }
  assert (I : input_set (Some text) = Ret (Some (reloaded ts ss))) by (unfold input_set; rewrite R; reflexivity).
  assert (Gs' : good_start n p t (Some (reloaded ts ss))).
  { apply reloaded_start; [exact S|exact Ht|exact Gs]. }
  assert (Hs' : run_setup threads rounds n p t order reads data (Some text)).
  { destruct Hs as [H1 H2 H3 H4 H5 H6]. split; auto. intros x Hx. rewrite I in Hx. apply ret_inj in Hx. injection Hx as <-. exact Gs'. }
  split; [exact Hs'|]. split.
  - destruct (C43_optimization_never_panics_partial threads (full_size data) samples (Some (length raw)) order clock n p t _ rounds Hth Hne Hor Hsup Gs' Hr) as ((m' & s' & M & Rt) & _).
    exists m', s'. split; [|exact Rt]. econstructor; eauto.
  - intros m' Hm'. destruct (run_facts _ _ _ _ _ _ _ _ _ _ _ _ _ _ _ Hs' Ed Hm') as (pre' & samples' & Ei' & Gp' & Es' & Hne' & Hr' & Ho').
    rewrite I in Ei'. apply ret_inj in Ei'. subst pre'. rewrite Es in Es'. apply ret_inj in Es'. subst samples'.
    split.
    + apply (proj2 (C43_optimization_never_panics_partial threads (full_size data) samples (Some (length raw)) order clock n p t _ rounds Hth Hne Hor Hsup Gs' Hr) m' Ho').
    + intros Eb s' Hret samples' N Es2 HN. rewrite Es in Es2. apply ret_inj in Es2. subst samples'.
      assert (Rm : t <> BytesHuff \/ Some (reloaded ts ss) = None \/ no_room n (reloaded ts ss)).
      { destruct (is_huff_dec t) as [Eh|Eh]; [|left; exact Eh]. right; right.
        assert (Rm : no_room n ts); [|rewrite (reloaded_flag t ts ss S Hty Ht); exact Rm].
        destruct Eb as [Eb|[Eb|Eb]]; [contradiction| |exact Eb].
        rewrite Eb in Ei. unfold input_set in Ei. apply ret_inj in Ei. subst pre.
        assert (I0 : exists ts0, initial samples (Some (length raw)) n p t None ts0) by (apply initial_exists; exact Hsup).
        destruct I0 as (ts0 & I0).
        destruct (C45_never_longer _ _ _ _ _ _ _ _ _ _ _ ts0 _ Hth Hne Hor Hsup Gp Hr I0 (or_intror (or_introl eq_refl)) Ho) as (_ & _ & K).
        destruct (K Eh) as (K1 & K2). destruct Hd as [(Hi & _)|(s & Hret' & <- & _)]; [|apply K2; exact Hret'].
        rewrite Forall_forall in K1. apply K1. right; exact Hi. }
      assert (K : forall s, returned m' s -> Forall (fun a => no_longer samples a (st_token_set s)) (reloaded ts ss :: m_saved m')).
      { exact (proj1 (proj2 (C45_never_longer threads (full_size data) samples (Some (length raw)) order clock n p t _ rounds (reloaded ts ss) m' Hth Hne Hor Hsup Gs' Hr eq_refl Rm Ho'))). }
      pose proof (Forall_inv (K s' Hret)) as Hx. cbn beta in Hx.
      destruct (C44_result_within_budget _ _ _ _ _ _ _ _ _ _ _ _ Hth Hne Hor Hsup Gs' Hr Ho') as (_ & G3). destruct (G3 s' Hret) as (_ & _ & MT).
      apply (Hx N (total_tokens s')); [|exact MT]. apply (reloaded_total t ts ss samples N S Hty Ht). exact HN.
Qed.

(** False for bits: from a file of a bits set in which some byte is not a token, no run gets
    past its first step. *)
Theorem C63_resume_refuted :
  forall U script threads ratio reads order clock rounds n p t raw processed ts ss text m,
  1 <= threads -> shaped ts ss -> (ts_type ts = Bits1 \/ ts_type ts = Bits2 \/ ts_type ts = Bits4) ->
  (exists tk, tokenizer_new ts = Ret tk) -> (exists b : byte, ~ In (Str [b]) (TokenSetModel.tokens ts)) ->
  (set_text ts = Ret text \/ exists s, st_token_set s = ts /\ writable ratio s /\ stats_text ratio s = Ret text) ->
  optimize_run U script threads reads order clock rounds n p t raw processed (Some text) m ->
  m_saved m = [] /\ forall s, ~ returned m s.
Proof.
  intros U script threads ratio reads order clock rounds n p t raw processed ts ss text m Hth S Hty Htk (b & Hb) Hf Hm.
  destruct (C22_round_trip_partial ts ss S) as ((j & Ej & Lj) & _).
  assert (R : read_token_set text = Ret (reloaded ts ss)).
  { destruct Hf as [Hf|(s & Es & W & Hf)].
    - assert (W : jwf j /\ jdepth j <= 127).
      { destruct (jwf_ts _ _ Ej) as (fs & _ & W & D & _). split; [exact W|lia]. }
      unfold set_text in Hf. rewrite Ej in Hf. cbn [bind] in Hf. apply ret_inj in Hf. subst text.
      unfold read_token_set. rewrite parse_show by apply W. exact Lj.
    - rewrite <- Es in S. destruct (C56_files_read_back_partial ratio s ss S W) as (t1 & t2 & _ & Et & _ & L).
      rewrite Hf in Et. apply ret_inj in Et. subst t2. rewrite L. f_equal. rewrite Es. reflexivity. }
  assert (NU : ~ exists tk, tokenizer_new (reloaded ts ss) = Ret tk).
  { intros H. apply Hb. apply (proj1 (C23_bits_reload_usable_iff ts ss j _ S Hty Htk Ej Lj) H). }
  destruct Hm as [data pre samples m E1 E2 E3 Hst]. unfold input_set in E2. rewrite R in E2. cbn [bind] in E2. apply ret_inj in E2. subst pre.
  assert (Rg : seqs_in_range (reloaded ts ss)).
  { intros q i Hq Hi. exact (co_range _ (C60_loaded_file_consistent _ _ R) q i Hq Hi). }
  revert Hst NU Rg. generalize (reloaded ts ss). intros bad Hst NU Rg.
  assert (No : forall r a c', requested r = bad -> ~ call threads (full_size data) samples (Some (length raw)) [] r a c').
  { intros r a c' Er Hc. apply NU.
    assert (P : forall bad' s, ts_sort bad = Ret bad' -> par_result bad' threads (full_size data) samples (Some (length raw)) s -> exists tk, tokenizer_new bad = Ret tk).
    { intros bad' s Eb Hp. apply (C08_sorting_keeps_usability _ _ Eb).
      destruct Hp as [s Hlt Hx|tk c s Hlt Htk0 _ _]; [|eauto].
      unfold tokenize_file_sync in Hx. apply bind_ret in Hx as (tk & Htk0 & _). eauto. }
    inversion Hc; subst; cbn [requested] in *; try discriminate; eapply P; eauto. }
  assert (Em : m = mkMachine [] [] (optimize_tokenset order clock rounds n p t (Some bad))).
  { remember (mkMachine [] [] (optimize_tokenset order clock rounds n p t (Some bad))) as m0 eqn:E0.
    induction Hst as [|m1 m2 m3 Hst IH Hstep]; [reflexivity|]. specialize (IH E0). subst m2. rewrite E0 in Hstep.
    unfold optimize_tokenset, optimize_impl in Hstep. cbn [initial_set pbind pret get_stats] in Hstep.
    inversion Hstep as [c sv r k a c' Hc|]; subst. destruct (No (NoPairs bad) a c' eq_refl Hc). }
  rewrite Em. split; [reflexivity|]. intros s Hret. unfold returned, optimize_tokenset, optimize_impl in Hret. cbn in Hret. discriminate.
Qed.

(** ** The hypotheses are met: the file of the 256 bytes *)
Lemma bytes_file p : exists ts text, set_text (new_bytes p) = Ret text /\ read_token_set text = Ret ts /\
  ts_type ts = Bytes /\ ts_processing ts = p /\ split_paragraphs ts = false /\ sequences ts = [] /\
  (exists tk, tokenizer_new ts = Ret tk) /\ (forall n, 256 <= n -> good_start n p Bytes (Some ts)).
Proof.
  destruct (visited_bytes p) as (V & B & L). pose proof (new_bytes_ntokens p) as Nb.
  assert (Sq : sequences (new_bytes p) = []) by reflexivity.
  revert V Nb Sq. generalize (new_bytes p). intros nb V Nb Sq. clear B L.
  destruct (vi_shaped _ _ _ _ V) as (ss & S). pose proof (vi_type _ _ _ _ V) as Ty.
  destruct (C22_round_trip_partial nb ss S) as ((j & Ej & Lj) & _). destruct (jwf_ts _ _ Ej) as (fs & -> & W & D & _).
  exists (reloaded nb ss), (show (JObj fs)). unfold set_text. rewrite Ej. split; [reflexivity|].
  split; [unfold read_token_set; rewrite parse_show by (assumption || lia); exact Lj|].
  assert (G : forall n, 256 <= n -> good_start n p Bytes (Some (reloaded nb ss))).
  { intros n Hn. apply reloaded_start; [exact S|auto|]. exists true. split; [exact V|lia]. }
  destruct (G 256 (le_n _)) as (sp & V' & _).
  unfold reloaded in *. rewrite Ty, Sq in *. cbn [ts_type ts_processing split_paragraphs sequences] in *.
  split; [reflexivity|]. split; [apply (vi_proc _ _ _ _ V)|]. split; [reflexivity|]. split; [reflexivity|].
  split; [apply C01_tokenizer_exists_iff_usable, (vi_usable _ _ _ _ V')|exact G].
Qed.

Definition no_unicode : unicode :=
  Build_unicode (fun _ => false) (fun _ => false) (fun _ => false) (fun c => [c]) (fun _ => false) (fun _ => false).
Definition two_reads (pos : nat) : nat := Nat.min (N.to_nat large) (2 - pos).

Lemma two_writable ts threads (samples : list bstr) s : good_start 256 Raw Bytes (Some ts) -> 1 <= threads ->
  full_samples two_reads [x61; x62] = Ret samples -> par_result ts threads (full_size [x61; x62]) samples (Some (length [x61; x62])) s ->
  writable (fun _ _ => lit "0.5") s.
Proof.
  intros (sp & V & Hn) Ht Es Hp.
  assert (C : concat samples = [x61; x62]).
  { destruct (C28_file_read_exactly_once two_reads [x61; x62] (N.to_nat large) 3) as [H|(l & El & C & _)].
    - unfold large; lia.
    - intros pos. unfold read_ok, two_reads. cbn [length]. split; [apply le_n|auto].
    - cbn; lia.
    - unfold full_samples in Es. cbn [length] in Es. congruence.
    - unfold full_samples in Es. cbn [length] in Es. rewrite Es in El. apply ret_inj in El. subst l. exact C. }
  destruct (par_facts _ _ _ _ _ _ (visited_range _ _ _ _ V) Ht Hp) as (_ & _ & E1 & E2 & E3 & MT).
  apply total_for_min in MT. pose proof (visited_total_bound _ _ _ _ _ _ V MT) as B. rewrite C in B, E3. cbn [length] in B, E3.
  assert (K : forall k, k <= 600 -> (N.of_nat k < 2 ^ 64)%N).
  { intros k Hk. apply N.lt_trans with 601%N; [lia|reflexivity]. }
  split.
  - intros a b. reflexivity.
  - rewrite E1. apply K. lia.
  - rewrite E3. apply K. lia.
  - apply K. lia.
  - intros k E. rewrite E2 in E. injection E as <-. reflexivity.
Qed.

Example C58_hypotheses_met : exists tokens name text ts,
  read_token_set tokens = Ret ts /\ split_paragraphs ts = false /\ ts_type ts = Bytes /\ sequences ts = [] /\
  converts no_unicode [] 4 (fun _ _ => lit "0.5") two_reads [x61; x62] None tokens name text /\
  (forall data samples s, maybe_process no_unicode [] [x61; x62] None (ts_processing ts) = Ret data -> full_samples two_reads data = Ret samples ->
     par_result ts 4 (full_size data) samples (Some (length [x61; x62])) s -> writable (fun _ _ => lit "0.5") s).
Proof.
  destruct (bytes_file Raw) as (ts & tokens & _ & R & Ty & P & Sp & Sq & (tk & Htk) & G).
  specialize (G 256 (le_n _)).
  assert (W : forall data samples s, maybe_process no_unicode [] [x61; x62] None (ts_processing ts) = Ret data -> full_samples two_reads data = Ret samples ->
     par_result ts 4 (full_size data) samples (Some (length [x61; x62])) s -> writable (fun _ _ => lit "0.5") s).
  { intros data samples s Ed Es Hp. rewrite P in Ed. cbn in Ed. apply ret_inj in Ed. subst data.
    eapply two_writable; [exact G| |exact Es|exact Hp]. repeat constructor. }
  destruct (C28_ascii_file two_reads [x61; x62] (N.to_nat large) 3) as (samples & Es & _).
  - repeat constructor; cbn; lia.
  - unfold large; lia.
  - intros pos. unfold read_ok, two_reads. cbn [length]. split; [apply le_n|auto].
  - cbn; lia.
  - destruct G as (sp & V & _).
    assert (Hp : exists s, par_result ts 4 (full_size [x61; x62]) samples (Some (length [x61; x62])) s).
    { eexists. apply pr_small; [reflexivity|]. apply (sync_eq ts tk Htk (visited_range _ _ _ _ V)). }
    destruct Hp as (s & Hp).
    destruct (par_facts _ _ _ _ _ _ (visited_range _ _ _ _ V) (ltac:(repeat constructor) : 1 <= 4) Hp) as (_ & _ & E1 & _).
    destruct (vi_shaped _ _ _ _ V) as (ss & S). rewrite <- E1 in S. destruct (stats_text_total (fun _ _ => lit "0.5") s ss S) as (text & Et).
    exists tokens, (file_name ts), text, ts. split; [exact R|]. split; [exact Sp|]. split; [exact Ty|]. split; [exact Sq|]. split; [|exact W].
    econstructor; [exact R|rewrite P; reflexivity|exact Es|exact Hp|exact Et].
Qed.

(** A raw starting set, a request for processed data: the hypotheses of
    C61_requested_kind_refuted are met with [p <> p0]. *)
Example C61_hypotheses_met : exists order clock rounds ts0 input m s,
  shuffles order /\ supported Bytes 300 /\ (let b := 258 * (3 * length [x61; x62]) in S (300 * S b + b) <= rounds) /\
  (forall pos, read_ok [x61; x62] (N.to_nat large) pos (two_reads pos)) /\
  maybe_process no_unicode [] [x41; x42] (Some [x61; x62]) CapsWords = Ret [x61; x62] /\
  input_set input = Ret (Some ts0) /\ good_start 300 Raw Bytes (Some ts0) /\
  optimize_run no_unicode [] 4 two_reads order clock rounds 300 CapsWords Bytes [x41; x42] (Some [x61; x62]) input m /\ returned m s.
Proof.
  destruct (bytes_file Raw) as (ts & tokens & _ & R & Ty & P & Sp & Sq & (tk & Htk) & G).
  assert (Hsh : shuffles (fun _ l => l)) by (intros m l; reflexivity).
  set (rounds := let b := 258 * (3 * 2) in S (300 * S b + b)).
  assert (Sup : supported Bytes 300) by (split; [apply Nat.leb_le; reflexivity|exact I]).
  assert (Hr : round_bound [[x61; x62]] 300 <= rounds).
  { unfold rounds, round_bound. cbn [concat app length]. cbv zeta.
    assert (B : 258 * 2 <= 258 * (3 * 2)) by lia. revert B. generalize (258 * 2) (258 * (3 * 2)). intros a b B.
    apply le_n_S, Nat.add_le_mono; [apply Nat.mul_le_mono_l; lia|exact B]. }
  assert (Hr2 : let b := 258 * (3 * length [x61; x62]) in S (300 * S b + b) <= rounds) by apply le_n.
  clearbody rounds. specialize (G 300 (proj1 (Nat.leb_le 256 300) eq_refl)).
  assert (Hne : ~ In [] [[x61; x62]]) by (intros [H|[]]; discriminate).
  destruct (proj1 (C43_optimization_never_panics_partial 4 (full_size [x61; x62]) [[x61; x62]] (Some (length [x41; x42]))
    (fun _ l => l) (fun _ => true) 300 Raw Bytes (Some ts) rounds (ltac:(repeat constructor)) Hne Hsh Sup G Hr)) as (m & s & M & Rt).
  exists (fun _ l => l), (fun _ => true), rounds, ts, (Some tokens), m, s.
  assert (Ei : input_set (Some tokens) = Ret (Some ts)) by (unfold input_set; rewrite R; reflexivity).
  split; [exact Hsh|]. split; [exact Sup|]. split; [exact Hr2|].
  split; [intros pos; unfold read_ok, two_reads; cbn [length]; split; [apply le_n|auto]|]. split; [reflexivity|]. split; [exact Ei|]. split; [exact G|].
  split; [|exact Rt]. econstructor; [reflexivity|exact Ei| |exact M].
  unfold optimize_samples. cbn [length]. replace (_ <? _)%N with true by (symmetry; apply N.ltb_lt; reflexivity).
  apply small_samples. unfold mega. lia.
Qed.

(** C63: a finished run from the file of the 256 bytes, with the file it wrote; the file
    of a bits set. *)
Example C63_hypotheses_met : exists ratio order clock rounds input m s text,
  run_setup 4 rounds 300 Raw Bytes order two_reads [x61; x62] input /\
  optimize_samples two_reads [x61; x62] [x61; x62] = Ret [[x61; x62]] /\
  optimize_run no_unicode [] 4 two_reads order clock rounds 300 Raw Bytes [x61; x62] None input m /\
  (forall s, returned m s -> writable ratio s) /\ returned m s /\ describes ratio m (st_token_set s) text.
Proof.
  destruct (bytes_file Raw) as (ts & tokens & _ & R & Ty & P & Sp & Sq & (tk & Htk) & G).
  assert (Hsh : shuffles (fun _ l => l)) by (intros m l; reflexivity).
  set (rounds := let b := 258 * (3 * 2) in S (300 * S b + b)).
  assert (Sup : supported Bytes 300) by (split; [apply Nat.leb_le; reflexivity|exact I]).
  assert (Hr : round_bound [[x61; x62]] 300 <= rounds).
  { unfold rounds, round_bound. cbn [concat app length]. cbv zeta.
    assert (B : 258 * 2 <= 258 * (3 * 2)) by lia. revert B. generalize (258 * 2) (258 * (3 * 2)). intros a b B.
    apply le_n_S, Nat.add_le_mono; [apply Nat.mul_le_mono_l; lia|exact B]. }
  assert (Hr2 : let b := 258 * (3 * length [x61; x62]) in S (300 * S b + b) <= rounds) by apply le_n.
  clearbody rounds. specialize (G 300 (proj1 (Nat.leb_le 256 300) eq_refl)).
  assert (Hne : ~ In [] [[x61; x62]]) by (intros [H|[]]; discriminate).
  assert (H4 : 1 <= 4) by repeat constructor.
  destruct (proj1 (C43_optimization_never_panics_partial 4 (full_size [x61; x62]) [[x61; x62]] (Some (length [x61; x62]))
    (fun _ l => l) (fun _ => true) 300 Raw Bytes (Some ts) rounds H4 Hne Hsh Sup G Hr)) as (m & s & M & Rt).
  assert (Ei : input_set (Some tokens) = Ret (Some ts)) by (unfold input_set; rewrite R; reflexivity).
  assert (Es : optimize_samples two_reads [x61; x62] [x61; x62] = Ret [[x61; x62]]).
  { unfold optimize_samples. cbn [length]. replace (_ <? _)%N with true by (symmetry; apply N.ltb_lt; reflexivity).
    apply small_samples. unfold mega. lia. }
  destruct (C44_result_within_budget _ _ _ _ _ _ _ _ _ _ _ _ H4 Hne Hsh Sup G Hr M) as (_ & K).
  destruct (K s Rt) as ((_ & (ss & Sh) & Hn & _) & (sp & V & _) & MT).
  destruct (stats_text_total (fun _ _ => lit "0.5") s ss Sh) as (text & Et).
  exists (fun _ _ => lit "0.5"), (fun _ l => l), (fun _ => true), rounds, (Some tokens), m, s, text.
  split.
  { split; try assumption.
    - intros pos; unfold read_ok, two_reads; cbn [length]; split; [apply le_n|auto].
    - intros x Hx. rewrite Ei in Hx. apply ret_inj in Hx. injection Hx as <-. exact G. }
  split; [exact Es|]. split; [econstructor; [reflexivity|exact Ei|exact Es|exact M]|].
  split; [|split; [exact Rt|right; eauto]].
  intros s' Rt'. assert (s' = s) by (unfold returned in *; congruence). subst s'.
  apply total_for_min in MT. pose proof (visited_total_bound _ _ _ _ _ _ V MT) as B. cbn [concat app length] in B.
  assert (K2 : forall k, k <= 600 -> (N.of_nat k < 2 ^ 64)%N).
  { intros k Hk. apply N.lt_trans with 601%N; [lia|reflexivity]. }
  assert (E2 : outcome_of [[x61; x62]] (Some 2) (optimize_tokenset (fun _ l => l) (fun _ => true) rounds 300 Raw Bytes (Some ts)) = Ret s).
  { apply (returned_outcome _ _ _ _ _ _ _ _ _ _ _ _ _ H4 Hsh Sup G Hr M Rt). }
  destruct (run_parts _ _ _ _ _ _ _ _ _ _ Hsh Sup G Hr E2) as (sp' & ts1 & ts2 & _ & F1 & _ & Es2 & Ea).
  destruct (visited_sort _ _ _ _ _ (proj1 F1) Es2) as (V2 & _).
  unfold answer in Ea. apply bind_ret in Ea as (ts3 & E3 & Ea). apply bind_ret in Ea as (s3 & E4 & Ea). apply ret_inj in Ea.
  cbn [requested] in E3. destruct (visited_sort _ _ _ _ _ V2 E3) as (V3 & _).
  destruct (C01_tokenizer_exists_iff_usable ts3) as (_ & U). destruct (U (vi_usable _ _ _ _ V3)) as (tk3 & Htk3).
  rewrite (sync_eq ts3 tk3 Htk3 (visited_range _ _ _ _ V3)) in E4. apply ret_inj in E4.
  destruct (tally_facts ts3 tk3 (Some 2) [[x61; x62]] Htk3 (visited_range _ _ _ _ V3)) as (T1 & T2 & T3 & _). rewrite E4 in T1, T2, T3.
  split.
  - intros a b. reflexivity.
  - apply K2. lia.
  - rewrite <- Ea. cbn [without_pairs scanned_bytes]. rewrite T3. apply K2. cbn; lia.
  - apply K2. lia.
  - intros k E. rewrite <- Ea in E. cbn [without_pairs initial_size] in E. rewrite T2 in E. injection E as <-. reflexivity.
Qed.
