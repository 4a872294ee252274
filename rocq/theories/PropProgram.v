(** * C98: what the end of a run of the program means. *)
From Coq Require Import String Permutation.
From Verif Require Import PropProcessing PropProcessCmd PropCount.
From Verif Require Import Base BaseLemmas Utf8 TokenSetModel TokenizerModel TokSpec SortLemmas
  TokenizerProof1 TokenSetProof TokenizerTheory TokenSetProof2 PropTokenizer StatsAlgebra BatchModel PropBatch
  JsonModel JsonText JsonProof PropJson Shaped SamplerModel PropSampler PropSamplerExact ProcessingModel CountModel CacheModel PropCache OptBytesModel OptimizeModel
  OptimizeProof1 OptimizeProof2 OptimizeProof3 OptimizeProof4 OptimizeProof5 OptimizeProof6 OptimizeProof7 OptimizeProof8
  PropOptimize PropDeterminism PropFixpoint MainModel PropMain CommandsModel PropFiles PropCommands PropOptFiles PropIncreasing
  PropOptStats PropDecode PropHistory ArgsModel PropArgs ProgramModel.
Local Open Scope list_scope.
Local Notation length := List.length.

(** ** Specification *)

(** The name of the file of a set of [k] tokens. *)
Definition set_file (k : nat) (p : processing) (t : token_type) : string :=
  ("tokens" ++ show_nat k ++ "_" ++ processing_name p ++ "_" ++ type_name t ++ ".json")%string.

(** [text] is the file of the set [ts], with statistics that say: the original data has
    [size] bytes, the text [samples] was scanned, and it needs [N] tokens. (If all numbers
    fit in 64 bits.) *)
Definition tells (ratio : nat -> nat -> bstr) (text : bstr) (ts : tokenset) (size : nat) (samples : list bstr) (N : nat) : Prop :=
  (forall a b, number_text (ratio a b)) ->
  Forall (fun k => (N.of_nat k < 2 ^ 64)%N) [size; length (concat samples); ntokens ts; N] ->
  (exists v, parse_json text = Some v /\
     jindex v (lit "stats") = stats_json ratio size (length (concat samples)) (ntokens ts) N) /\
  (exists ts', read_token_set text = Ret ts' /\ tokens ts' = tokens ts /\ ts_type ts' = ts_type ts /\ ts_processing ts' = ts_processing ts /\
     (ts_type ts = Bytes \/ ts_type ts = BytesHuff -> sequences ts' = sequences ts)).

(** After an optimization: there is a set of the requested kind with at most [n] tokens
    from whose tokens every text can be recovered; its file tells the least number of tokens with which
    the pieces of the scanned text can be written; nothing but files of sets of this kind has changed. *)
Definition optimized (ratio : nat -> nat -> bstr) (raw content : bstr) (tdir : string) (p : processing) (t : token_type) (n : nat) (fs fs' : dir) : Prop :=
  exists ts (samples : list bstr) N text,
    good_result n p t ts /\ decodable ts /\ min_total ts samples N /\
    length content <= length (concat samples) /\ (kept_whole raw content -> concat samples = content) /\
    fs' (join tdir (set_file (ntokens ts) p t)) = Some text /\ tells ratio text ts (length raw) samples N /\
    (forall path, fs' path <> fs path -> exists k, k <= n /\ path = join tdir (set_file k p t)).

(** The starting set, if one is asked for, is there and is one that the program
    could have made for the request (see C43), and texts can be recovered from its tokens. *)
Definition good_input (fs : dir) (p : processing) (t : token_type) (n : nat) (input : option string) : Prop :=
  match input with
  | None => True
  | Some f => exists text ts, fs f = Some text /\ read_token_set text = Ret ts /\ good_start n p t (Some ts) /\ decodable ts
  end.

(** The data to tokenize: the file itself, the processed file, or what processing makes of valid text. *)
Definition good_data (X : system) (fs : dir) (raw : bstr) (pd : option string) (p : processing) (content : bstr) : Prop :=
  match p, pd with
  | Raw, _ => content = raw
  | CapsWords, Some f => fs f = Some content
  | CapsWords, None => utf8 raw /\ never_refuses (x_script X) /\ process_str (x_unicode X) (lines_text raw) = Ret content
  end.

Definition surrounds (X : system) (n : nat) (content : bstr) : Prop :=
  environment (x_threads X) (x_rounds X) n (x_order X) (x_reads X) content.

(** ** Writing files *)
Section Files.
Variable X : system.

Lemma save_ok ws : forall fs fs', save_files X fs ws = (fs', true) -> fs' = put_files fs ws.
Proof.
  induction ws as [|(path & text) ws IH]; intros fs fs' E; cbn in *; [congruence|].
  destruct (x_can_write X path); [apply IH; exact E|discriminate].
Qed.

Lemma save_all ws : (forall path, x_can_write X path = true) -> forall fs, save_files X fs ws = (put_files fs ws, true).
Proof. intros H. induction ws as [|(path & text) ws IH]; intros fs; cbn; [reflexivity|]. rewrite H. apply IH. Qed.

Lemma save_prefix ws : forall fs fs' ok, save_files X fs ws = (fs', ok) -> exists done rest, ws = done ++ rest /\ fs' = put_files fs done.
Proof.
  induction ws as [|(path & text) ws IH]; intros fs fs' ok E; cbn in E.
  - injection E as <- <-. exists [], []. auto.
  - destruct (x_can_write X path).
    + destruct (IH _ _ _ E) as (done & rest & -> & ->). exists ((path, text) :: done), rest. auto.
    + injection E as <- <-. exists [], ((path, text) :: ws). auto.
Qed.

Lemma save_changed ws fs fs' ok path : save_files X fs ws = (fs', ok) -> fs' path <> fs path -> exists text, In (path, text) ws.
Proof.
  intros E Hn. destruct (save_prefix _ _ _ _ E) as (done & rest & -> & ->).
  destruct (put_files_at done fs path) as [Hs|(text & Hi & _)]; [congruence|]. exists text. apply in_or_app. left. exact Hi.
Qed.

Lemma save_refused ws fs fs' ok : (forall path text, In (path, text) ws -> x_can_write X path = false) -> save_files X fs ws = (fs', ok) ->
  fs' = fs /\ (ok = true -> ws = []).
Proof.
  destruct ws as [|(path & text) ws]; cbn; intros H E; [injection E as <- <-; auto|].
  rewrite (H path text) in E by (left; reflexivity). injection E as <- <-. split; [reflexivity|discriminate].
Qed.
End Files.

Lemma set_file_name ts p t : ts_processing ts = p -> ts_type ts = t -> file_name ts = set_file (ntokens ts) p t.
Proof. intros <- <-. unfold file_name, ts_name, set_file. rewrite !str_app_assoc. reflexivity. Qed.

(** ** The start of an optimization *)
Lemma open_data_ok X fs data pd p raw content : table_ok (x_unicode X) -> fs data = Some raw -> good_data X fs raw pd p content ->
  open_data X fs data pd p = Ret (raw, content).
Proof.
  intros Hok Ed H. unfold open_data. rewrite Ed. cbn [unwrap bind]. destruct p; cbn [good_data] in H; [subst; reflexivity|].
  destruct pd as [f|]; [rewrite H; reflexivity|]. destruct H as (Hu & Hn & E).
  destruct (C33_file_processing (x_unicode X) default_capacity (x_script X) raw Hok Hn Hu) as (out & Eo & E').
  cbn [maybe_process]. rewrite E'. cbn [bind assert_that]. rewrite E in Eo. apply ret_inj in Eo. subst out. reflexivity.
Qed.

(** Opened data and the relation that the other theorems use. *)
Lemma open_data_inv X fs data pd p raw content : open_data X fs data pd p = Ret (raw, content) ->
  fs data = Some raw /\ exists processed, maybe_process (x_unicode X) (x_script X) raw processed p = Ret content /\
    (p = CapsWords -> match pd with None => processed = None | Some f => exists x, processed = Some x /\ fs f = Some x end).
Proof.
  unfold open_data. intros E. apply bind_ret in E as (raw' & E1 & E). apply bind_ret in E as (content' & E2 & E). apply ret_inj in E.
  injection E as -> ->. destruct (fs data) as [x|]; [|discriminate]. apply ret_inj in E1. subst x. split; [reflexivity|].
  destruct p; [exists None; split; [exact E2|discriminate]|]. destruct pd as [f|]; [|exists None; auto].
  destruct (fs f) as [x|] eqn:Ef; [|discriminate]. apply ret_inj in E2. subst x. exists (Some content). split; [reflexivity|]. intros _. eauto.
Qed.

Lemma open_input_inv fs input pre : open_input fs input = Ret pre ->
  exists itext, input_set itext = Ret pre /\
    match input with None => itext = None | Some f => exists x, itext = Some x /\ fs f = Some x end.
Proof.
  destruct input as [f|]; cbn [open_input]; [|intros E; exists None; auto]. unfold open_token_set. intros E.
  destruct (fs f) as [x|]; [|discriminate]. exists (Some x). split; [exact E|eauto].
Qed.

Lemma open_input_ok fs p t n input : good_input fs p t n input -> exists pre, open_input fs input = Ret pre /\ good_start n p t pre /\
  forall ts, pre = Some ts -> decodable ts.
Proof.
  destruct input as [f|]; cbn [good_input open_input]; [|intros _; exists None; split; [reflexivity|]; split; [exact I|discriminate]].
  intros (text & ts & E1 & E2 & G & D). exists (Some ts). unfold open_token_set. rewrite E1. cbn [unwrap bind]. rewrite E2. cbn [bind].
  split; [reflexivity|]. split; [exact G|]. intros ts' [= <-]. exact D.
Qed.

Lemma memory_samples_total reads raw content : (N.of_nat (length raw) < 2 ^ 34)%N -> exists samples, optimize_samples reads raw content = Ret samples.
Proof.
  intros H. unfold optimize_samples. change (2 ^ 34)%N with two34 in H.
  destruct (N.ltb_spec (N.of_nat (length raw)) two34) as [_|K]; [|lia].
  assert (Hm : 0 < N.to_nat mega) by (unfold mega; lia).
  destruct (C27_text_kept_iff content (N.to_nat mega) (S (length content)) Hm (Nat.lt_succ_diag_r _)) as (sl & l & _ & _ & El & _). exists l. exact El.
Qed.

Lemma start_inv X fs data pd p input size content pre samples : start_optimize X fs data pd p input = Ret (size, content, pre, samples) ->
  exists raw, open_data X fs data pd p = Ret (raw, content) /\ size = length raw /\ open_input fs input = Ret pre /\
    optimize_samples (x_reads X) raw content = Ret samples.
Proof.
  unfold start_optimize. intros E. apply bind_ret in E as ((raw & c) & E1 & E). cbn beta iota in E. apply bind_ret in E as (pre' & E2 & E).
  apply bind_ret in E as (samples' & E3 & E). apply ret_inj in E. injection E as <- <- <- <-. eauto.
Qed.

Lemma setup_of X n p t content itext : surrounds X n content -> supported t n ->
  (forall ts, input_set itext = Ret (Some ts) -> good_start n p t (Some ts)) ->
  run_setup (x_threads X) (x_rounds X) n p t (x_order X) (x_reads X) content itext.
Proof. intros [E1 E2 E3 E4] Hs Hi. split; assumption. Qed.

(** ** The files of a result *)
Lemma tells_of ratio text s ss size (samples : list bstr) : shaped (st_token_set s) ss -> initial_size s = Some size ->
  scanned_bytes s = length (concat samples) -> stats_text ratio s = Ret text ->
  tells ratio text (st_token_set s) size samples (total_tokens s).
Proof.
  intros S Ei Es Et Hr Hb. split; [exact (stats_of_file ratio s text size samples Et Ei Es Hr Hb)|].
  inversion Hb as [|? ? B1 Hb1]; subst. inversion Hb1 as [|? ? B2 Hb2]; subst. inversion Hb2 as [|? ? B3 Hb3]; subst.
  inversion Hb3 as [|? ? B4 _]; subst.
  exists (reloaded (st_token_set s) ss). split.
  - apply (text_reads ratio); [exact S|]. right. exists s. split; [reflexivity|]. split; [|exact Et].
    split; auto; [rewrite Es; exact B2|]. intros k Ek. rewrite Ei in Ek. injection Ek as <-. exact B1.
  - unfold reloaded. cbn [tokens ts_type ts_processing sequences]. split; [reflexivity|]. split; [reflexivity|]. split; [reflexivity|].
    intros [->| ->]; reflexivity.
Qed.

Lemma put_last fs ws path text : put_files fs (ws ++ [(path, text)]) path = Some text.
Proof. rewrite put_files_app. cbn [put_files]. unfold put_file. rewrite String.eqb_refl. reflexivity. Qed.

Lemma in_dir_app d ws ws' : in_dir d (ws ++ ws') = in_dir d ws ++ in_dir d ws'.
Proof. apply map_app. Qed.

Lemma texts_made X l result ws : (forall ts, In ts l -> exists ss, shaped ts ss) -> (forall s, result = Some s -> exists ss, shaped (st_token_set s) ss) ->
  ~ no_text X l result ws.
Proof.
  intros S1 S2 H. destruct H as [l ts rest result ws _ E|l s ws _ E].
  - destruct (S1 ts) as (ss & S); [apply in_or_app; right; left; reflexivity|].
    destruct (to_json_fields _ ss S) as (js & _ & Ej). unfold set_text in E. rewrite Ej in E. discriminate E.
  - destruct (S2 s eq_refl) as (ss & S). destruct (stats_text_total (x_ratio X) s ss S) as (text & Et). congruence.
Qed.

(** The search of an optimization whose request fits. *)
Lemma search_facts X fs p t n tdir raw content pre samples m : supported t n -> surrounds X n content ->
  good_start n p t pre -> (forall ts, pre = Some ts -> decodable ts) ->
  optimize_samples (x_reads X) raw content = Ret samples ->
  searching X n p t (length raw) content pre samples m ->
  ~ In [] samples /\ round_bound samples n <= x_rounds X /\
  m_prog m <> PDone Panic /\ (forall ws, ~ no_text X (m_saved m) (result_of m) ws) /\
  (exists ws, written (x_ratio X) m = Ret ws /\
   (forall s, returned m s -> optimized (x_ratio X) raw content tdir p t n fs (put_files fs (in_dir tdir ws))) /\
   (forall name text, In (name, text) ws -> exists k, k <= n /\ name = set_file k p t) /\
   (forall s, returned m s -> ws <> [])).
Proof.
  intros Hsup He Gp Dp Es Hm. unfold surrounds in He. destruct He as [E1 E2 E3 E4].
  destruct (optimize_samples_ok _ _ _ _ E4 Es) as (Hne & Hl).
  assert (Hr : round_bound samples n <= x_rounds X) by (revert Hl; eapply bound_ok; eassumption).
  change (optimizing (x_threads X) (full_size content) samples (Some (length raw)) (x_order X) (x_clock X 0%N) n p t pre (x_rounds X) m) in Hm.
  split; [exact Hne|]. split; [exact Hr|]. split.
  { apply (proj2 (C43_optimization_never_panics_partial _ _ _ _ _ _ _ _ _ _ _ E1 Hne E2 Hsup Gp Hr) m Hm). }
  destruct (C44_result_within_budget _ _ _ _ _ _ _ _ _ _ _ _ E1 Hne E2 Hsup Gp Hr Hm) as (G1 & G2).
  assert (S1 : forall ts, In ts (m_saved m) -> exists ss, shaped ts ss) by (intros ts Hi; apply (G1 ts Hi)).
  assert (S2 : forall s, returned m s -> exists ss, shaped (st_token_set s) ss) by (intros s Hi; apply (G2 s Hi)).
  split.
  { intros ws. apply texts_made; [exact S1|]. intros s Es'. apply S2. unfold result_of in Es'. unfold returned.
    destruct (m_prog m) as [[s'| |]|r k|ts k]; try discriminate. congruence. }
  destruct (written_facts (x_ratio X) m S1 S2) as (saved & ws & E & F & K). exists ws. split; [exact E|].
  assert (Names : forall name text, In (name, text) ws -> exists k, k <= n /\ name = set_file k p t).
  { intros name text Hi. destruct (written_describes _ _ _ _ _ E S1 S2 Hi) as (ts & -> & D).
    assert (G : good_result n p t ts) by (destruct D as [(Hi' & _)|(s & Hr' & <- & _)]; [apply (G1 ts Hi')|apply (G2 s Hr')]).
    destruct G as (_ & _ & Gn & Gt & Gpr). exists (ntokens ts). split; [exact Gn|]. apply set_file_name; assumption. }
  split; [|split; [exact Names|]].
  - intros s Rs. destruct K as [(Hno & _)|(s' & text & Rs' & Et & ->)]; [destruct (Hno s Rs)|].
    assert (s' = s) by (unfold returned in *; congruence). subst s'.
    destruct (G2 s Rs) as (Gr & _ & Hmin). pose proof Gr as (_ & (ss & S) & _ & Gt & Gpr).
    destruct (C85_optimized_sets_decodable _ _ _ _ _ _ _ _ _ _ _ _ E1 Hne E2 Hsup Gp Dp Hr Hm) as (_ & Dd).
    destruct (returned_outcome _ _ _ _ _ _ _ _ _ _ _ _ _ E1 E2 Hsup Gp Hr Hm Rs) as (O1 & _).
    destruct (search_answer _ _ _ _ _ _ _ _ _ _ O1) as (ts & s0 & A0 & A2).
    assert (Ets : st_token_set s = ts) by (rewrite A2; cbn [without_pairs st_token_set]; eapply sync_set, A0).
    destruct (sync_facts ts samples (Some (length raw)) s0) as (_ & F2 & F3 & _); [rewrite <- Ets; exact (sh_range _ _ S)|exact A0|].
    destruct (scanned_text _ _ _ _ E4 Es) as (K1 & K2).
    exists (st_token_set s), samples, (total_tokens s), text.
    split; [exact Gr|]. split; [apply Dd; exact Rs|]. split; [exact Hmin|]. split; [exact K1|]. split; [exact K2|].
    split; [|split].
    + rewrite in_dir_app. cbn [in_dir map fst snd]. rewrite <- (set_file_name _ _ _ Gpr Gt). apply put_last.
    + apply (tells_of _ _ _ ss); [exact S|rewrite A2; exact F2|rewrite A2; exact F3|exact Et].
    + intros path Hn. destruct (put_files_at (in_dir tdir (saved ++ [(file_name (st_token_set s), text)])) fs path) as [Hs|(tx & Hi & _)]; [congruence|].
      apply in_dir_in in Hi as (name & -> & Hi). destruct (Names _ _ Hi) as (k & Hk & ->). eauto.
  - intros s Rs ->. destruct K as [(Hno & _)|(s' & text & _ & _ & Ews)]; [exact (Hno s Rs)|]. destruct saved; discriminate.
Qed.

(** ** C98: an optimization that can start *)

(** A request that can be served: the arguments ask for it, the files are there, and the result can be
    written.  ([supported]: C43; [surrounds]: threads, sort and reads behave.) *)
Record serves (X : system) (fs : dir) (args : list string) (data : string) (pd : option string) (tdir : string) (p : processing) (t : token_type)
  (n : N) (input : option string) (raw content : bstr) : Prop := {
  sv_args : asks args (Optimize data pd tdir p t n input None);
  sv_target : supported t (N.to_nat n);
  sv_table : table_ok (x_unicode X);
  sv_raw : fs data = Some raw;
  sv_size : (N.of_nat (length raw) < 2 ^ 34)%N;
  sv_data : good_data X fs raw pd p content;
  sv_input : good_input fs p t (N.to_nat n) input;
  sv_around : surrounds X (N.to_nat n) content;
  sv_write : forall k, k <= N.to_nat n -> x_can_write X (join tdir (set_file k p t)) = true
}.

Lemma save_when X ws : forall fs, (forall path text, In (path, text) ws -> x_can_write X path = true) -> save_files X fs ws = (put_files fs ws, true).
Proof.
  induction ws as [|(path & text) ws IH]; intros fs H; cbn; [reflexivity|].
  rewrite (H path text) by (left; reflexivity). apply IH. intros p' t' Hi. apply (H p' t'). right. exact Hi.
Qed.

Lemma serves_start X fs args data pd tdir p t n input raw content : serves X fs args data pd tdir p t n input raw content ->
  exists pre samples, start_optimize X fs data pd p input = Ret (length raw, content, pre, samples) /\
    good_start (N.to_nat n) p t pre /\ (forall ts, pre = Some ts -> decodable ts) /\ optimize_samples (x_reads X) raw content = Ret samples.
Proof.
  intros [Ha Hs Ht Hr Hz Hd Hi He Hw].
  pose proof (open_data_ok X fs data pd p raw content Ht Hr Hd) as Eo.
  destruct (open_input_ok fs p t (N.to_nat n) input Hi) as (pre & Ei & Gp & Dp).
  destruct (memory_samples_total (x_reads X) raw content Hz) as (samples & Es).
  exists pre, samples. split; [|auto]. unfold start_optimize. rewrite Eo. cbn [bind]. rewrite Ei. cbn [bind]. rewrite Es. reflexivity.
Qed.

(** The program ends normally, whatever the threads do; the result is as requested, and it is the same
    for all schedules of the threads. *)
Theorem C98_optimize_succeeds : forall X fs args data pd tdir p t n input raw content,
  serves X fs args data pd tdir p t n input raw content ->
  (exists fs', ends X fs args Normal fs') /\
  (forall e fs', ends X fs args e fs' -> e = Normal /\ optimized (x_ratio X) raw content tdir p t (N.to_nat n) fs fs') /\
  (forall e e' fs1 fs2, ends X fs args e fs1 -> ends X fs args e' fs2 -> forall path, fs1 path = fs2 path).
Proof.
  intros X fs args data pd tdir p t n input raw content Sv. pose proof Sv as [Ha Hs Ht Hr Hz Hd Hi He Hw].
  apply C95_command_line in Ha.
  destruct (serves_start _ _ _ _ _ _ _ _ _ _ _ _ Sv) as (pre & samples & Est & Gp & Dp & Es). clear Sv Hd Hi.
  assert (Facts : forall m, searching X (N.to_nat n) p t (length raw) content pre samples m -> m_prog m <> PDone Panic /\ (forall ws, ~ no_text X (m_saved m) (result_of m) ws) /\
    exists ws, written (x_ratio X) m = Ret ws /\
      (forall s, returned m s -> optimized (x_ratio X) raw content tdir p t (N.to_nat n) fs (put_files fs (in_dir tdir ws))) /\
      save_files X fs (in_dir tdir ws) = (put_files fs (in_dir tdir ws), true)).
  { intros m Hm. destruct (search_facts X fs p t (N.to_nat n) tdir raw content pre samples m Hs He Gp Dp Es Hm) as (_ & _ & Np & Nt & ws & E & F1 & F2 & _).
    split; [exact Np|]. split; [exact Nt|]. exists ws. split; [exact E|]. split; [exact F1|]. apply save_when.
    intros path text Hin. apply in_dir_in in Hin as (name & -> & Hin). destruct (F2 _ _ Hin) as (k & Hk & ->). apply Hw, Hk. }
  assert (Run : forall e fs', ends X fs args e fs' -> e = Normal /\ exists m s ws,
    searching X (N.to_nat n) p t (length raw) content pre samples m /\ returned m s /\ written (x_ratio X) m = Ret ws /\ fs' = put_files fs (in_dir tdir ws)).
  { intros e fs' H. destruct H; try congruence; rewrite Ha in H; injection H; intros; subst; try congruence;
      match goal with E : start_optimize _ _ _ _ _ _ = Ret _ |- _ => rewrite Est in E; apply ret_inj in E; injection E; intros; subst end;
      match goal with Hm : searching _ _ _ _ _ _ _ _ ?m |- _ => destruct (Facts m Hm) as (Np & Nt & ws' & Ew' & Fo & Fs) end;
      try contradiction; try (match goal with N : no_text _ _ _ _ |- _ => elim (Nt _ N) end);
      match goal with Ew : written _ ?m = Ret ?w |- _ => rewrite Ew in Ew'; apply ret_inj in Ew'; subst w end.
    - rewrite H3 in Fs. discriminate Fs.
    - rewrite H4 in Fs. injection Fs as ->. split; [reflexivity|]. eauto 10. }
  split; [|split].
  - pose proof He as [E1 E2 E3 E4]. destruct (optimize_samples_ok _ _ _ _ E4 Es) as (Hne & Hl).
    assert (Hrd : round_bound samples (N.to_nat n) <= x_rounds X) by (revert Hl; eapply bound_ok; eassumption).
    destruct (proj1 (C43_optimization_never_panics_partial (x_threads X) (full_size content) samples (Some (length raw)) (x_order X) (x_clock X 0%N)
      (N.to_nat n) p t pre (x_rounds X) E1 Hne E2 Hs Gp Hrd)) as (m & s & Hm & Rs).
    destruct (Facts m Hm) as (_ & _ & ws & Ew & _ & Sw). eexists. eapply end_optimize; eauto.
  - intros e fs' H. destruct (Run e fs' H) as (-> & m & s & ws & Hm & Rs & Ew & ->). split; [reflexivity|].
    destruct (Facts m Hm) as (_ & _ & ws' & Ew' & Fo & _). rewrite Ew in Ew'. apply ret_inj in Ew'. subst ws'. exact (Fo s Rs).
  - intros e e' fs1 fs2 H1 H2 path. destruct (Run e fs1 H1) as (_ & m1 & s1 & ws1 & Hm1 & R1 & W1 & ->).
    destruct (Run e' fs2 H2) as (_ & m2 & s2 & ws2 & Hm2 & R2 & W2 & ->).
    pose proof He as [E1 E2 E3 E4]. destruct (optimize_samples_ok _ _ _ _ E4 Es) as (Hne & Hl).
    assert (Hrd : round_bound samples (N.to_nat n) <= x_rounds X) by (revert Hl; eapply bound_ok; eassumption).
    destruct (returned_outcome _ _ _ _ _ _ _ _ _ _ _ _ _ E1 E2 Hs Gp Hrd Hm1 R1) as (O1 & S1).
    destruct (returned_outcome _ _ _ _ _ _ _ _ _ _ _ _ _ E1 E2 Hs Gp Hrd Hm2 R2) as (O2 & S2).
    rewrite O1 in O2. apply ret_inj in O2. subst s2.
    assert (ws1 = ws2) as ->; [|reflexivity]. unfold written in W1, W2. unfold returned in R1, R2.
    rewrite R1, S1 in W1. rewrite R2, S2 in W2. rewrite W1 in W2. apply ret_inj in W2. exact W2.
Qed.

(** And it does end: from every moment the search goes on to its result, and not forever. *)
Theorem C98_optimize_ends : forall X fs args data pd tdir p t n input raw content size content' pre samples m,
  serves X fs args data pd tdir p t n input raw content ->
  start_optimize X fs data pd p input = Ret (size, content', pre, samples) ->
  searching X (N.to_nat n) p t size content' pre samples m ->
  Acc (fun m2 m1 => step (x_threads X) (full_size content') samples (Some size) m1 m2) m /\
  ((exists s, m_prog m = PDone (Ret s)) \/ exists m', step (x_threads X) (full_size content') samples (Some size) m m').
Proof.
  intros X fs args data pd tdir p t n input raw content size content' pre samples m Sv Est Hm.
  destruct (serves_start _ _ _ _ _ _ _ _ _ _ _ _ Sv) as (pre' & samples' & Est' & Gp & Dp & Es).
  rewrite Est in Est'. apply ret_inj in Est'. injection Est' as -> -> -> ->.
  destruct Sv as [Ha Hs Ht Hr Hz Hd Hi [E1 E2 E3 E4] Hw]. destruct (optimize_samples_ok _ _ _ _ E4 Es) as (Hne & Hl).
  assert (Hrd : round_bound samples' (N.to_nat n) <= x_rounds X) by (revert Hl; eapply bound_ok; eassumption).
  split.
  - apply (proj2 (C42_optimization_terminates _ _ _ _ _ (x_clock X 0%N) _ _ _ _ _ E1 Hne E2 Hs Gp Hrd)).
  - apply (proj2 (C43_optimization_never_panics_partial _ _ _ _ _ _ _ _ _ _ _ E1 Hne E2 Hs Gp Hrd) m Hm).
Qed.

(** ** A run that cannot start *)

(** Data that is not there or cannot be processed. *)
Inductive no_data (fs : dir) (data : string) (pd : option string) (p : processing) : Prop :=
| nd_missing : fs data = None -> no_data fs data pd p
| nd_processed f : p = CapsWords -> pd = Some f -> fs f = None -> no_data fs data pd p
| nd_invalid raw : p = CapsWords -> pd = None -> fs data = Some raw -> ~ utf8 raw -> no_data fs data pd p.

(** Token sets that are not there, or files that hold none. *)
Definition no_set (fs : dir) (path : string) : Prop :=
  fs path = None \/ exists text, fs path = Some text /\ read_token_set text = Panic.

Inductive cannot_start (X : system) (fs : dir) : command -> Prop :=
| cs_process data output : fs data = None \/ x_can_write X output = false -> cannot_start X fs (Process data output)
| cs_count data : fs data = None -> cannot_start X fs (CountChars data)
| cs_convert_set data pd input tdir : no_set fs input -> cannot_start X fs (ConvertTokens data pd input tdir)
| cs_convert_data data pd input tdir text ts : fs input = Some text -> read_token_set text = Ret ts ->
    no_data fs data pd (ts_processing ts) -> cannot_start X fs (ConvertTokens data pd input tdir)
| cs_convert_unusable data pd input tdir text ts : fs input = Some text -> read_token_set text = Ret ts ->
    tokenizer_new ts = Panic -> (exists raw, fs data = Some raw) -> ts_processing ts = Raw -> cannot_start X fs (ConvertTokens data pd input tdir)
| cs_optimize_data data pd tdir p t n input min : no_data fs data pd p -> cannot_start X fs (Optimize data pd tdir p t n input min)
| cs_optimize_set data pd tdir p t n f min raw content : no_set fs f -> fs data = Some raw -> good_data X fs raw pd p content ->
    cannot_start X fs (Optimize data pd tdir p t n (Some f) min).

Lemma no_data_panics X fs data pd p : table_ok (x_unicode X) -> no_data fs data pd p -> open_data X fs data pd p = Panic.
Proof.
  intros Ht H. unfold open_data. destruct H as [E|f -> -> E|raw -> -> Er Hu]; [rewrite E; reflexivity|..].
  - destruct (fs data); [|reflexivity]. cbn [unwrap bind]. rewrite E. reflexivity.
  - rewrite Er. cbn [unwrap bind maybe_process]. destruct (C33_invalid_text_is_reported (x_unicode X) default_capacity (x_script X) raw Ht Hu) as (sink & E).
    rewrite E. reflexivity.
Qed.
Lemma no_set_panics fs f : no_set fs f -> open_token_set fs f = Panic.
Proof. unfold open_token_set. intros [E|(text & E & Ep)]; rewrite E; [reflexivity|exact Ep]. Qed.

(** The program ends with an error and has changed nothing. *)
Theorem C98_failed_start : forall X fs args c, table_ok (x_unicode X) -> asks args c -> cannot_start X fs c ->
  ends X fs args Failed fs /\ forall e fs', ends X fs args e fs' -> e = Failed /\ fs' = fs.
Proof.
  intros X fs args c Ht Ha Hc. apply C95_command_line in Ha.
  destruct Hc as [data output Hc|data Hc|data pd input tdir Hc|data pd input tdir text ts E1 E2 Hc|data pd input tdir text ts E1 E2 E3 (raw & E4) E5
    |data pd tdir p t n input min Hc|data pd tdir p t n f min raw content Hc Er Hd].
  - assert (Hp : x_can_write X output = true -> process_command (x_unicode X) (x_script X) fs data output = (fs, false)).
    { intros Hw. destruct Hc as [Hc|Hc]; [|congruence]. unfold process_command. rewrite Hc. reflexivity. }
    split.
    + destruct (x_can_write X output) eqn:Ew; [|eapply end_process_create; eauto].
      change Failed with (status false). eapply end_process; eauto.
    + intros e fs' H. destruct H; try congruence; rewrite Ha in H; injection H as <- <-; [|auto].
      rewrite Hp in H1 by assumption. injection H1 as <- <-. auto.
  - assert (Hp : (text <- unwrap (fs data) ;; count_chars text) = Panic) by (rewrite Hc; reflexivity). split; [eapply end_count_panic; eauto|].
    intros e fs' H. destruct H; try congruence; auto.
  - assert (Hp : start_convert X fs data pd input = Panic) by (unfold start_convert; rewrite (no_set_panics _ _ Hc); reflexivity).
    split; [eapply end_convert_panic; eauto|]. intros e fs' H. destruct H; try congruence; auto.
  - assert (Hp : start_convert X fs data pd input = Panic).
    { unfold start_convert, open_token_set. rewrite E1. cbn [unwrap bind]. rewrite E2. cbn [bind]. rewrite (no_data_panics _ _ _ _ _ Ht Hc). reflexivity. }
    split; [eapply end_convert_panic; eauto|]. intros e fs' H. destruct H; try congruence; auto.
  - assert (Hp : start_convert X fs data pd input = Panic).
    { unfold start_convert, open_token_set, open_data. rewrite E1. cbn [unwrap bind]. rewrite E2. cbn [bind]. rewrite E4, E5. cbn [unwrap bind]. rewrite E3. reflexivity. }
    split; [eapply end_convert_panic; eauto|]. intros e fs' H. destruct H; try congruence; auto.
  - assert (Hp : start_optimize X fs data pd p input = Panic) by (unfold start_optimize; rewrite (no_data_panics _ _ _ _ _ Ht Hc); reflexivity).
    assert (Hq : start_increasing X fs data pd p input = Panic) by (unfold start_increasing; rewrite (no_data_panics _ _ _ _ _ Ht Hc); reflexivity).
    split; [destruct min; [eapply end_increasing_start|eapply end_optimize_start]; eauto|].
    intros e fs' H. destruct H; try congruence; auto.
  - pose proof (open_data_ok X fs data pd p raw content Ht Er Hd) as Eo.
    assert (Hp : start_optimize X fs data pd p (Some f) = Panic).
    { unfold start_optimize. rewrite Eo. cbn [bind open_input]. rewrite (no_set_panics _ _ Hc). reflexivity. }
    assert (Hq : start_increasing X fs data pd p (Some f) = Panic).
    { unfold start_increasing. rewrite Eo. cbn [bind open_input]. rewrite (no_set_panics _ _ Hc). reflexivity. }
    split; [destruct min; [eapply end_increasing_start|eapply end_optimize_start]; eauto|].
    intros e fs' H. destruct H; try congruence; auto.
Qed.

Theorem C98_refused_arguments : forall X fs args, (forall c, ~ asks args c) ->
  ends X fs args Failed fs /\ forall e fs', ends X fs args e fs' -> e = Failed /\ fs' = fs.
Proof.
  intros X fs args Hn. assert (E : parse_args args = None).
  { destruct (parse_args args) as [c|] eqn:E; [|reflexivity]. elim (Hn c). apply C95_command_line. exact E. }
  split; [constructor; exact E|]. intros e fs' H. destruct H; try congruence. auto.
Qed.

(** ** A directory in which nothing can be written *)

(** No result, and the program does not pretend there is one. *)
Theorem C98_unwritable_directory : forall X fs args c tdir e fs', asks args c ->
  (exists data pd input, c = ConvertTokens data pd input tdir) \/ (exists data pd p t n input min, c = Optimize data pd tdir p t n input min) ->
  (forall name, x_can_write X (join tdir name) = false) ->
  ends X fs args e fs' -> e = Failed /\ fs' = fs.
Proof.
  intros X fs args c tdir e fs' Ha Hc Hw H. apply C95_command_line in Ha.
  assert (No : forall ws fs' ok, save_files X fs (in_dir tdir ws) = (fs', ok) -> fs' = fs /\ (ok = true -> ws = [])).
  { intros ws f' ok E. destruct (save_refused X (in_dir tdir ws) fs f' ok) as (E1 & E2); [|exact E|].
    - intros path text Hi. apply in_dir_in in Hi as (name & -> & _). apply Hw.
    - split; [exact E1|]. intros Ht. apply E2 in Ht. destruct ws; [reflexivity|discriminate]. }
  assert (Wr : forall m ws s, written (x_ratio X) m = Ret ws -> m_prog m = PDone (Ret s) -> ws <> []).
  { intros m ws s E Em ->. unfold written in E. rewrite Em in E. apply bind_ret in E as (saved & _ & E). apply bind_ret in E as (text & _ & E).
    apply ret_inj in E. destruct saved; discriminate. }
  assert (Iw : forall f saved ws, increasing_written (x_ratio X) (Some f) saved = Ret ws -> ws <> []).
  { intros f saved ws E ->. unfold increasing_written in E. apply bind_ret in E as (sv & _ & E). apply bind_ret in E as (text & _ & E).
    apply ret_inj in E. destruct sv; discriminate. }
  destruct Hc as [(data & pd & input & ->)|(data & pd & p & t & n & input & min & ->)];
    destruct H; try congruence; rewrite Ha in H; injection H; intros; subst; auto;
    match goal with E : save_files _ _ _ = _ |- _ => apply No in E as (-> & K) end; auto.
  - destruct ok; [|auto]. specialize (K eq_refl). discriminate K.
  - elim (Wr _ _ _ H3 H2). auto.
  - elim (Iw _ _ _ H2). auto.
Qed.

(** ** The other commands *)
Lemma par_exists ts tk threads total (samples : list bstr) init : tokenizer_new ts = Ret tk -> seqs_in_range ts -> 1 <= threads -> ~ In [] samples ->
  exists s, par_result ts threads total samples init s.
Proof.
  intros Htk Hr Ht Hne. destruct (N.lt_ge_cases total small_size) as [Hlt|Hge].
  - eexists. apply pr_small; [exact Hlt|]. apply (sync_eq _ tk Htk Hr).
  - destruct (C12_some_execution_returns _ tk init threads samples Htk Hr Ht Hne) as (c0 & st & H1 & H2). exists st. eapply pr_large; eauto.
Qed.

(** convert-tokens with a usable set and data that can be read (C28): the set is written, with
    the statistics of the whole data, and nothing else. *)
Theorem C98_convert_succeeds : forall X fs args data pd input tdir raw content tokens ts samples,
  asks args (ConvertTokens data pd input tdir) -> table_ok (x_unicode X) -> 1 <= x_threads X ->
  fs data = Some raw -> fs input = Some tokens -> read_token_set tokens = Ret ts ->
  (exists tk, tokenizer_new ts = Ret tk) -> (forall q, In q (sequences ts) -> 1 < length (seq_tokens q)) ->
  good_data X fs raw pd (ts_processing ts) content ->
  (forall pos, read_ok content (N.to_nat large) pos (x_reads X pos)) -> full_samples (x_reads X) content = Ret samples ->
  let path := join tdir (set_file (ntokens ts) (ts_processing ts) (ts_type ts)) in x_can_write X path = true ->
  (exists fs', ends X fs args Normal fs') /\
  (forall e fs', ends X fs args e fs' -> e = Normal /\ concat samples = content /\
     (exists N text, min_total ts samples N /\ fs' path = Some text /\ tells (x_ratio X) text ts (length raw) samples N) /\
     forall other, other <> path -> fs' other = fs other) /\
  (forall e e' fs1 fs2, ends X fs args e fs1 -> ends X fs args e' fs2 -> forall path, fs1 path = fs2 path).
Proof.
  intros X fs args data pd input tdir raw content tokens ts samples Ha Ht Hth Er Ei El (tk & Htk) Hl Hd Hr Es path Hw.
  apply C95_command_line in Ha. pose proof (open_data_ok X fs data pd _ raw content Ht Er Hd) as Eo.
  assert (Est : start_convert X fs data pd input = Ret (ts, length raw, content, samples)).
  { unfold start_convert, open_token_set. rewrite Ei. cbn [unwrap bind]. rewrite El. cbn [bind]. rewrite Eo. cbn [bind]. rewrite Htk. cbn [bind]. rewrite Es. reflexivity. }
  assert (Hrange : seqs_in_range ts) by (intros q i Hq Hi; exact (co_range _ (C60_loaded_file_consistent _ _ El) q i Hq Hi)).
  assert (S : exists ss, shaped ts ss) by (pose proof El as El'; unfold read_token_set in El'; apply bind_ret in El' as (v & _ & Hv); eapply C60_loaded_shaped; eauto).
  destruct S as (ss & S).
  assert (C : concat samples = content /\ ~ In [] samples).
  { unfold full_samples in Es. destruct (C28_file_read_exactly_once (x_reads X) content (N.to_nat large) (Datatypes.S (length content))) as [Hp|(l & E & C & Hne)];
      [unfold large; lia|exact Hr|lia|congruence|]. rewrite Es in E. apply ret_inj in E. subst l. auto. }
  destruct C as (C & Hne).
  assert (Ep : path = join tdir (file_name ts)) by (unfold path; rewrite (set_file_name ts _ _ eq_refl eq_refl); reflexivity).
  assert (Run : forall e fs', ends X fs args e fs' -> e = Normal /\ exists s text, par_result ts (x_threads X) (full_size content) samples (Some (length raw)) s /\
    stats_text (x_ratio X) s = Ret text /\ fs' = put_file fs path text).
  { intros e fs' H. destruct H; try congruence; rewrite Ha in H; injection H; intros; subst;
      match goal with E : start_convert _ _ _ _ _ = Ret _ |- _ => rewrite Est in E; apply ret_inj in E; injection E; intros; subst end.
    - cbn [in_dir map fst snd save_files] in H3. rewrite <- Ep, Hw in H3. injection H3 as <- <-. split; [reflexivity|]. eauto.
    - destruct (par_facts _ _ _ _ _ _ Hrange Hth H1) as (_ & _ & E1 & _). rewrite <- E1 in S.
      destruct (stats_text_total (x_ratio X) s ss S) as (text & Et). congruence. }
  split; [|split].
  - destruct (par_exists ts tk (x_threads X) (full_size content) samples (Some (length raw)) Htk Hrange Hth Hne) as (s & P).
    destruct (par_facts _ _ _ _ _ _ Hrange Hth P) as (_ & _ & E1 & _). pose proof S as S'. rewrite <- E1 in S'.
    destruct (stats_text_total (x_ratio X) s ss S') as (text & Et). exists (put_file fs path text). change Normal with (status true).
    eapply end_convert; eauto. cbn [in_dir map fst snd save_files]. rewrite <- Ep, Hw. reflexivity.
  - intros e fs' H. destruct (Run e fs' H) as (-> & s & text & P & Et & ->). split; [reflexivity|]. split; [exact C|].
    destruct (par_facts _ _ _ _ _ _ Hrange Hth P) as (_ & _ & E1 & E2 & E3 & E4). split.
    + exists (total_tokens s), text. split; [exact E4|]. split; [apply put_same|]. rewrite <- E1 in S |- *. eapply tells_of; eauto.
    + intros other Hn. apply put_other. exact Hn.
  - intros e e' fs1 fs2 H1 H2. destruct (Run e fs1 H1) as (_ & s1 & t1 & P1 & T1 & ->). destruct (Run e' fs2 H2) as (_ & s2 & t2 & P2 & T2 & ->).
    apply (C11_result_is_unique _ _ _ _ _ _ Hrange Hth) in P1, P2. rewrite P1 in P2. apply ret_inj in P2. subst s2. rewrite T1 in T2. apply ret_inj in T2. subst t2. reflexivity.
Qed.

(** count-chars changes nothing; with valid text it ends normally. *)
Theorem C98_count_chars : forall X fs args data text, asks args (CountChars data) -> fs data = Some text ->
  (forall e fs', ends X fs args e fs' -> fs' = fs) /\
  (utf8 text -> ends X fs args Normal fs /\ forall e fs', ends X fs args e fs' -> e = Normal).
Proof.
  intros X fs args data text Ha Et. apply C95_command_line in Ha. split.
  - intros e fs' H. destruct H; try congruence; reflexivity.
  - intros Hu. destruct (C48_character_counts text Hu) as (total & low & top & E & _). split.
    + apply (end_count X fs args data (total, low, top)); [exact Ha|]. rewrite Et. exact E.
    + intros e fs' H. destruct H; try congruence; try reflexivity. rewrite Ha in H. injection H as <-. rewrite Et in H0. cbn [unwrap bind] in H0. congruence.
Qed.

(** process: with valid text, another output file and a disk that takes everything, it ends
    normally and the output is the processed text; nothing else changes. *)
Theorem C98_process_succeeds : forall X fs args data output text, asks args (Process data output) -> table_ok (x_unicode X) ->
  fs data = Some text -> utf8 text -> data <> output -> never_refuses (x_script X) -> x_can_write X output = true ->
  (exists fs', ends X fs args Normal fs') /\
  forall e fs', ends X fs args e fs' -> e = Normal /\
    (exists out, process_str (x_unicode X) (lines_text text) = Ret out /\ fs' output = Some out) /\ forall other, other <> output -> fs' other = fs other.
Proof.
  intros X fs args data output text Ha Ht Et Hu Hne Hs Hw. apply C95_command_line in Ha.
  destruct (C69_process_command_partial (x_unicode X) (x_script X) fs data output text Ht Hne Et Hu Hs) as (out & d' & E1 & E2 & E3 & _ & E5). split.
  - exists d'. change Normal with (status true). eapply end_process; eauto.
  - intros e fs' H. destruct H; try congruence; rewrite Ha in H; injection H; intros; subst; try congruence.
    rewrite E2 in H1. injection H1 as <- <-. split; [reflexivity|]. split; [eauto|exact E5].
Qed.

(** ** optimize --min-data-size *)
Lemma inc_decodable X n p t size content min pre x saved : 1 <= x_threads X -> shuffles (x_order X) -> supported t n ->
  (let b := 258 * (3 * length content) in S (n * S b + b) <= x_rounds X) -> good_start n p t pre -> (forall ts, pre = Some ts -> decodable ts) ->
  inc X n p t size content min pre x saved ->
  match x with IRun _ cur => forall ts, cur = Some ts -> decodable ts | IReturned f => decodable (st_token_set f) | IPanicked => True end.
Proof.
  intros E1 E2 Hs E3 Gp Dp H. unfold inc in H. induction H as [|sz cur saved total samples m s full f H IH Hsz Hc Es Hst Em Ef Pf]; [exact Dp|].
  pose proof (head_good _ _ _ _ _ _ _ _ _ _ _ _ _ _ E1 E2 Hs E3 Gp _ _ _ H) as Gc.
  destruct (sampler_total (x_below X) content sz) as (total' & samples' & Es' & Hne & Hl). rewrite Es in Es'. injection Es' as <- <-.
  pose proof (bound_ok (x_threads X) (x_rounds X) n content E1 E3 _ Hl) as Hr.
  pose proof (proj2 (C85_optimized_sets_decodable _ _ _ _ _ _ _ _ _ _ _ _ E1 Hne E2 Hs Gc IH Hr Hst) s Em) as D.
  destruct (C44_result_within_budget _ _ _ _ _ _ _ _ _ _ _ _ E1 Hne E2 Hs Gc Hr Hst) as (_ & G2).
  destruct (G2 s Em) as ((_ & (ss & S) & _) & _).
  destruct (par_facts _ _ _ _ _ _ (sh_range _ _ S) E1 Pf) as (_ & _ & Ets & _).
  destruct ((large <? sz)%N && x_near X s f); [rewrite Ets; exact D|]. intros ts [= <-]. exact D.
Qed.

(** If it ends normally, the result is as requested, with the statistics of the whole data. *)
Theorem C98_increasing_succeeded : forall X fs args data pd tdir p t n input min raw content fs',
  asks args (Optimize data pd tdir p t n input (Some min)) -> supported t (N.to_nat n) -> table_ok (x_unicode X) ->
  fs data = Some raw -> good_data X fs raw pd p content -> good_input fs p t (N.to_nat n) input -> surrounds X (N.to_nat n) content ->
  ends X fs args Normal fs' ->
  exists ts (samples : list bstr) N text, concat samples = content /\
    good_result (N.to_nat n) p t ts /\ decodable ts /\ min_total ts samples N /\
    fs' (join tdir (set_file (ntokens ts) p t)) = Some text /\ tells (x_ratio X) text ts (length raw) samples N /\
    (forall path, fs' path <> fs path -> exists k, k <= N.to_nat n /\ path = join tdir (set_file k p t)).
Proof.
  intros X fs args data pd tdir p t n input min raw content fs' Ha Hs Ht Er Hd Hi [E1 E2 E3 E4] H.
  apply C95_command_line in Ha. pose proof (open_data_ok X fs data pd p raw content Ht Er Hd) as Eo.
  destruct (open_input_ok fs p t (N.to_nat n) input Hi) as (pre & Ei & Gp & Dp).
  assert (Est : start_increasing X fs data pd p input = Ret (length raw, content, pre)).
  { unfold start_increasing. rewrite Eo. cbn [bind]. rewrite Ei. reflexivity. }
  remember Normal as e eqn:Ee. destruct H; try congruence; try discriminate Ee. rewrite Ha in H. injection H as <- <- <- <- <- <- <- <-.
  rewrite Est in H0. apply ret_inj in H0. injection H0 as <- <- <-. rename H1 into Hm, H2 into Ew, H3 into Sw. clear Ee.
  destruct (moment_good _ _ _ _ _ _ _ _ _ _ _ _ _ _ E1 E2 Hs E3 Gp _ _ Hm) as (G1 & G2).
  destruct (G2 f eq_refl) as (Gr & (sz & cur & total & sm & m & s & full & _ & _ & _ & _ & Gs & _ & Ef & Esync)).
  assert (D : decodable (st_token_set f)).
  { remember (Some f) as r eqn:Er'. destruct Hm as [| |f' saved Hm]; try discriminate. injection Er' as ->.
    exact (inc_decodable _ _ _ _ _ _ _ _ _ _ E1 E2 Hs E3 Gp Dp Hm). }
  pose proof Gr as (_ & (ss & S) & _ & Gt & Gpr). pose proof (sync_set _ _ _ _ Esync) as Ets.
  destruct Gs as (_ & (ss' & S') & _).
  destruct (sync_facts (st_token_set s) full (Some (length raw)) f (sh_range _ _ S') Esync) as (_ & F2 & F3 & F4).
  assert (C : concat full = content).
  { unfold full_samples in Ef. destruct (C28_file_read_exactly_once (x_reads X) content (N.to_nat large) (Datatypes.S (length content))) as [Hp|(l & E & C & _)];
      [unfold large; lia|exact E4|lia|congruence|]. rewrite Ef in E. apply ret_inj in E. subst l. exact C. }
  pose proof Ew as Ew'. unfold increasing_written in Ew'. apply bind_ret in Ew' as (sv & Esv & Ew'). apply bind_ret in Ew' as (text & Et & Ew').
  apply ret_inj in Ew'. subst ws. apply save_ok in Sw. subst fs'.
  exists (st_token_set f), full, (total_tokens f), text. split; [exact C|]. split; [exact Gr|]. split; [exact D|].
  split; [rewrite Ets; exact F4|]. split; [|split].
  - rewrite in_dir_app. cbn [in_dir map fst snd]. rewrite <- (set_file_name _ _ _ Gpr Gt). apply put_last.
  - apply (tells_of _ _ _ ss); assumption.
  - intros path Hn. destruct (put_files_at (in_dir tdir (sv ++ [(file_name (st_token_set f), text)])) fs path) as [Hp|(tx & Hin & _)]; [congruence|].
    apply in_dir_in in Hin as (name & -> & Hin). destruct (increasing_names _ _ _ _ _ _ Ew Hin) as (ts & -> & Hts).
    assert (G : good_result (N.to_nat n) p t ts) by (destruct Hts as [Hts|(s' & [= <-] & ->)]; [exact (G1 _ Hts)|exact Gr]).
    destruct G as (_ & _ & Gn & Gt' & Gp'). exists (ntokens ts). split; [exact Gn|]. rewrite (set_file_name _ _ _ Gp' Gt'). reflexivity.
Qed.

(** ** The hypotheses are met *)
Definition small_system (rounds : nat) : system :=
  mkSystem ascii_table [] 4 (fun _ _ => lit "0.5") two_reads (fun _ l => l) (fun _ _ => true) (fun _ _ => true) (fun _ _ _ => true) rounds (fun _ => true).

Lemma asks_bytes : asks ["optimize"; "-d"; "data"; "-t"; "sets"; "--type=bytes"; "-p"; "raw"; "-n"; "300"]%string
  (Optimize "data" None "sets" Raw Bytes 300 None None).
Proof. apply C95_command_line. reflexivity. Qed.

Lemma asks_convert : asks ["convert-tokens"; "-d"; "data"; "-i"; "set"; "-t"; "sets"]%string (ConvertTokens "data" None "set" "sets").
Proof. apply C95_command_line. reflexivity. Qed.

Theorem C98_hypotheses_met :
  (exists X fs args, serves X fs args "data" None "sets" Raw Bytes 300 None [x61; x62] [x61; x62] /\ exists fs', ends X fs args Normal fs') /\
  (exists X fs args tokens ts samples, asks args (ConvertTokens "data" None "set" "sets") /\ table_ok (x_unicode X) /\ 1 <= x_threads X /\
     fs "data"%string = Some [x61; x62] /\ fs "set"%string = Some tokens /\ read_token_set tokens = Ret ts /\
     (exists tk, tokenizer_new ts = Ret tk) /\ (forall q, In q (sequences ts) -> 1 < length (seq_tokens q)) /\
     good_data X fs [x61; x62] None (ts_processing ts) [x61; x62] /\
     (forall pos, read_ok [x61; x62] (N.to_nat large) pos (x_reads X pos)) /\ full_samples (x_reads X) [x61; x62] = Ret samples /\
     (forall path, x_can_write X path = true)) /\
  (exists X fs args c, table_ok (x_unicode X) /\ asks args c /\ cannot_start X fs c).
Proof.
  assert (Tb : table_ok ascii_table) by apply ascii_table_ok.
  assert (Rd : forall pos, read_ok [x61; x62] (N.to_nat large) pos (two_reads pos)).
  { intros pos. unfold read_ok, two_reads. cbn [length]. split; [apply le_n|auto]. }
  set (fs := fun x => if String.eqb x "data" then Some [x61; x62] else None).
  split; [|split].
  - set (rounds := let b := 258 * (3 * length [x61; x62]) in S (N.to_nat 300 * S b + b)).
    assert (Hr : let b := 258 * (3 * length [x61; x62]) in S (N.to_nat 300 * S b + b) <= rounds) by apply le_n. clearbody rounds.
    assert (Sv : serves (small_system rounds) fs ["optimize"; "-d"; "data"; "-t"; "sets"; "--type=bytes"; "-p"; "raw"; "-n"; "300"]%string
      "data" None "sets" Raw Bytes 300 None [x61; x62] [x61; x62]).
    { split.
      - apply asks_bytes.
      - split; [apply Nat.leb_le; reflexivity|exact I].
      - exact Tb.
      - reflexivity.
      - reflexivity.
      - reflexivity.
      - exact I.
      - split; [cbn; repeat constructor|intros m l; reflexivity|exact Hr|exact Rd].
      - reflexivity. }
    exists (small_system rounds), fs. eexists. split; [exact Sv|]. exact (proj1 (C98_optimize_succeeds _ _ _ _ _ _ _ _ _ _ _ _ Sv)).
  - destruct (bytes_file Raw) as (ts & tokens & _ & R & Ty & P & Sp & Sq & Htk & G).
    destruct (C28_ascii_file two_reads [x61; x62] (N.to_nat large) 3) as (samples & Es & _);
      [repeat constructor; cbn; lia|unfold large; lia|exact Rd|cbn; lia|].
    exists (small_system 0), (fun x => if String.eqb x "data" then Some [x61; x62] else if String.eqb x "set" then Some tokens else None).
    exists ["convert-tokens"; "-d"; "data"; "-i"; "set"; "-t"; "sets"]%string, tokens, ts, samples.
    split; [apply asks_convert|]. split; [exact Tb|]. split; [cbn; repeat constructor|]. split; [reflexivity|]. split; [reflexivity|].
    split; [exact R|]. split; [exact Htk|]. split; [rewrite Sq; intros q []|]. split; [rewrite P; reflexivity|]. split; [exact Rd|]. split; [exact Es|reflexivity].
  - exists (small_system 0), (fun _ => None), ["convert-tokens"; "-d"; "data"; "-i"; "set"; "-t"; "sets"]%string. eexists.
    split; [exact Tb|]. split; [apply asks_convert|]. apply cs_convert_set. left. reflexivity.
Qed.
