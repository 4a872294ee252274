(** * Property C112: the same result on another computer. *)
From Coq Require Import String.
From Verif Require Import Base BaseLemmas Utf8 TokenSetModel TokenizerModel TokSpec BatchModel PropBatch SamplerModel PropSampler ProcessingModel PropProcessing
  CacheModel OptimizeModel OptimizeProof3 PropOptimize PropDeterminism JsonModel PropJson CommandsModel PropFiles PropOptFiles MainModel PropMain
  ArgsModel PropArgs ProgramModel PropProgram PropInvalid.
Local Open Scope list_scope.
Local Notation length := List.length.

(** Two computers that run the same program on the same files: the same Unicode tables, the same text of fractions, the same order of
    equal elements in the unstable sort.  They may differ in the number of threads, their schedules, the clock, how much a
    read returns, and how the disk takes writes. *)
Definition same_program (X X' : system) : Prop :=
  x_unicode X = x_unicode X' /\ x_ratio X = x_ratio X' /\ x_order X = x_order X'.

Lemma same_content X X' fs raw pd p content content' : x_unicode X = x_unicode X' ->
  good_data X fs raw pd p content -> good_data X' fs raw pd p content' -> content = content'.
Proof.
  intros EU. unfold good_data. destruct p; [congruence|]. destruct pd as [f|]; [congruence|].
  intros (_ & _ & E) (_ & _ & E'). rewrite EU in E. congruence.
Qed.

(** How a run of a request that can be served ends. *)
Lemma served_run X fs args data pd tdir p t n input raw content pre samples e fs' :
  serves X fs args data pd tdir p t n input raw content ->
  start_optimize X fs data pd p input = Ret (length raw, content, pre, samples) ->
  ends X fs args e fs' -> e = Normal /\ exists m s ws, searching X (N.to_nat n) p t (length raw) content pre samples m /\
    returned m s /\ written (x_ratio X) m = Ret ws /\ fs' = put_files fs (in_dir tdir ws).
Proof.
  intros Sv Est H. pose proof Sv as [Ha Hs Ht Hr Hz Hd Hi He Hw]. apply C95_command_line in Ha.
  destruct (serves_start _ _ _ _ _ _ _ _ _ _ _ _ Sv) as (pre' & samples' & Est' & Gp & Dp & Es).
  rewrite Est in Est'. apply ret_inj in Est'. injection Est' as <- <-. clear Sv Hd Hi.
  assert (Facts : forall m, searching X (N.to_nat n) p t (length raw) content pre samples m -> m_prog m <> PDone Panic /\ (forall ws, ~ no_text X (m_saved m) (result_of m) ws) /\
    exists ws, written (x_ratio X) m = Ret ws /\ save_files X fs (in_dir tdir ws) = (put_files fs (in_dir tdir ws), true)).
  { intros m Hm. destruct (search_facts X fs p t (N.to_nat n) tdir raw content pre samples m Hs He Gp Dp Es Hm) as (_ & _ & Np & Nt & ws & E & F1 & F2 & _).
    split; [exact Np|]. split; [exact Nt|]. exists ws. split; [exact E|]. apply save_when.
    intros path text Hin. apply in_dir_in in Hin as (name & -> & Hin). destruct (F2 _ _ Hin) as (k & Hk & ->). apply Hw, Hk. }
  destruct H; try congruence; rewrite Ha in H; injection H; intros; subst; try congruence;
    match goal with E : start_optimize _ _ _ _ _ _ = Ret _ |- _ => rewrite Est in E; apply ret_inj in E; injection E; intros; subst end;
    match goal with Hm : searching _ _ _ _ _ _ _ _ ?m |- _ => destruct (Facts m Hm) as (Np & Nt & ws' & Ew' & Fs) end;
    try contradiction; try (match goal with N : no_text _ _ _ _ |- _ => elim (Nt _ N) end);
    match goal with Ew : written _ ?m = Ret ?w |- _ => rewrite Ew in Ew'; apply ret_inj in Ew'; subst w end.
  - rewrite H3 in Fs. discriminate Fs.
  - rewrite H4 in Fs. injection Fs as ->. split; [reflexivity|]. eauto 10.
Qed.

Lemma result_file X fs p t n tdir raw content pre samples m s ws : supported t n -> surrounds X n content ->
  good_start n p t pre -> optimize_samples (x_reads X) raw content = Ret samples ->
  searching X n p t (length raw) content pre samples m -> returned m s -> written (x_ratio X) m = Ret ws ->
  good_result n p t (st_token_set s) /\
  exists text, stats_text (x_ratio X) s = Ret text /\ put_files fs (in_dir tdir ws) (join tdir (file_name (st_token_set s))) = Some text.
Proof.
  intros Hsup He Gp Es Hm Rs Ew. unfold surrounds in He. destruct He as [E1 E2 E3 E4].
  destruct (optimize_samples_ok _ _ _ _ E4 Es) as (Hne & Hl).
  assert (Hr : round_bound samples n <= x_rounds X) by (revert Hl; eapply bound_ok; eassumption).
  destruct (C44_result_within_budget _ _ _ _ _ _ _ _ _ _ _ _ E1 Hne E2 Hsup Gp Hr Hm) as (G1 & G2).
  assert (S1 : forall ts, In ts (m_saved m) -> exists ss, shaped ts ss) by (intros ts Hi; apply (G1 ts Hi)).
  assert (S2 : forall s, returned m s -> exists ss, shaped (st_token_set s) ss) by (intros s' Hi; apply (G2 s' Hi)).
  destruct (written_facts (x_ratio X) m S1 S2) as (saved & ws' & E & F & K). rewrite Ew in E. apply ret_inj in E. subst ws'.
  split; [apply (G2 s Rs)|]. destruct K as [(Hno & _)|(s' & text & Rs' & Et & ->)]; [destruct (Hno s Rs)|].
  assert (s' = s) by (unfold returned in *; congruence). subst s'. exists text. split; [exact Et|].
  rewrite in_dir_app. cbn [in_dir map fst snd]. apply put_last.
Qed.

(** An optimization (data below 16 GB, without --min-data-size) that two computers can serve ends normally on both, and the
    file of the result is the same, byte for byte. *)
Theorem C112_same_result_elsewhere : forall X X' fs args data pd tdir p t n input raw content content' e e' fs1 fs2,
  same_program X X' ->
  serves X fs args data pd tdir p t n input raw content -> serves X' fs args data pd tdir p t n input raw content' ->
  ends X fs args e fs1 -> ends X' fs args e' fs2 ->
  e = Normal /\ e' = Normal /\
  exists ts text, good_result (N.to_nat n) p t ts /\
    fs1 (join tdir (file_name ts)) = Some text /\ fs2 (join tdir (file_name ts)) = Some text /\
    exists s, st_token_set s = ts /\ stats_text (x_ratio X) s = Ret text.
Proof.
  intros X X' fs args data pd tdir p t n input raw content content' e e' fs1 fs2 (EU & ER & EO) Sv Sv' H1 H2.
  assert (content = content') as <- by (eapply same_content; [exact EU|exact (sv_data _ _ _ _ _ _ _ _ _ _ _ _ Sv)|exact (sv_data _ _ _ _ _ _ _ _ _ _ _ _ Sv')]).
  destruct (serves_start _ _ _ _ _ _ _ _ _ _ _ _ Sv) as (pre & samples & Est & Gp & Dp & Es).
  destruct (serves_start _ _ _ _ _ _ _ _ _ _ _ _ Sv') as (pre' & samples' & Est' & Gp' & Dp' & Es').
  assert (pre' = pre /\ samples' = samples) as (-> & ->).
  { pose proof (sv_size _ _ _ _ _ _ _ _ _ _ _ _ Sv) as Hz. split.
    - unfold start_optimize in Est, Est'. apply bind_ret in Est as ((r1, c1) & _ & Est). apply bind_ret in Est as (q & Eq & Est).
      apply bind_ret in Est as (sm & _ & Est). apply ret_inj in Est. injection Est as _ _ <- _.
      apply bind_ret in Est' as ((r2, c2) & _ & Est'). rewrite Eq in Est'. cbn [bind] in Est'.
      apply bind_ret in Est' as (sm' & _ & Est'). apply ret_inj in Est'. injection Est' as _ _ <- _. reflexivity.
    - unfold optimize_samples in Es, Es'. assert (Hz' : (N.of_nat (length raw) <? two34)%N = true) by (apply N.ltb_lt; exact Hz).
      rewrite Hz' in Es, Es'. congruence. }
  destruct (served_run _ _ _ _ _ _ _ _ _ _ _ _ _ _ _ _ Sv Est H1) as (-> & m1 & s1 & ws1 & Hm1 & R1 & W1 & ->).
  destruct (served_run _ _ _ _ _ _ _ _ _ _ _ _ _ _ _ _ Sv' Est' H2) as (-> & m2 & s2 & ws2 & Hm2 & R2 & W2 & ->).
  split; [reflexivity|]. split; [reflexivity|].
  destruct Sv as [_ Hs _ _ _ _ _ He _]. destruct Sv' as [_ _ _ _ _ _ _ He' _].
  destruct (result_file X fs p t (N.to_nat n) tdir raw content pre samples m1 s1 ws1 Hs He Gp Es Hm1 R1 W1) as (G & text & Et & F1).
  destruct (result_file X' fs p t (N.to_nat n) tdir raw content pre samples m2 s2 ws2 Hs He' Gp Es' Hm2 R2 W2) as (_ & text' & Et' & F2).
  pose proof He as [E1 E2 E3 E4]. destruct (optimize_samples_ok _ _ _ _ E4 Es) as (Hne & Hl).
  assert (Hrd : round_bound samples (N.to_nat n) <= x_rounds X) by (revert Hl; eapply bound_ok; eassumption).
  pose proof He' as [E1' E2' E3' E4'].
  assert (Hrd' : round_bound samples (N.to_nat n) <= x_rounds X') by (revert Hl; eapply bound_ok; eassumption).
  unfold searching in Hm1, Hm2. rewrite <- EO in Hm2.
  destruct (C53_one_result (x_threads X) (x_threads X') (full_size content) (full_size content) samples samples (Some (length raw)) (x_order X)
    (x_clock X 0%N) (x_clock X' 0%N) (N.to_nat n) p t pre (x_rounds X) (x_rounds X') m1 m2 s1 s2) as (<- & _); auto.
  rewrite <- ER, Et in Et'. apply ret_inj in Et'. subst text'.
  exists (st_token_set s1), text. split; [exact G|]. split; [exact F1|]. split; [exact F2|]. eauto.
Qed.

(** ** convert-tokens, process and count-chars *)
Lemma process_elsewhere U cap script script' file : table_ok U -> never_refuses script -> never_refuses script' ->
  process_file U cap script file = process_file U cap script' file.
Proof.
  intros HU R R'. destruct (utf8_valid file) eqn:V.
  - apply utf8_valid_spec in V. destruct (C33_file_processing U cap script file HU R V) as (o & E & F).
    destruct (C33_file_processing U cap script' file HU R' V) as (o' & E' & F'). rewrite E in E'. apply ret_inj in E'. subst o'. congruence.
  - assert (Hv : ~ utf8 file) by (intros K; apply utf8_valid_spec in K; congruence).
    destruct (C33_written_before_the_error U cap file HU Hv) as (good & l & r & _ & _ & _ & _ & _ & _ & A).
    destruct (A script R) as (o & E & F). destruct (A script' R') as (o' & E' & F'). rewrite E in E'. apply ret_inj in E'. subst o'. congruence.
Qed.

Lemma save_elsewhere X X' ws : x_can_write X = x_can_write X' -> forall fs, save_files X fs ws = save_files X' fs ws.
Proof. intros E. induction ws as [|(path & text) ws IH]; intros fs; cbn; [reflexivity|]. rewrite <- E, IH. reflexivity. Qed.

(** Every run of these commands ends in the same way on both computers and leaves the same files.  Reads must return the same
    amounts here: convert-tokens cuts the data into samples where they end (C28). *)
Theorem C112_same_files_elsewhere : forall X X' fs args e e' fs1 fs2,
  same_program X X' -> table_ok (x_unicode X) -> 1 <= x_threads X -> 1 <= x_threads X' ->
  never_refuses (x_script X) -> never_refuses (x_script X') -> x_can_write X = x_can_write X' -> x_reads X = x_reads X' ->
  (forall data pd tdir p t n input min, parse_args args <> Some (Optimize data pd tdir p t n input min)) ->
  ends X fs args e fs1 -> ends X' fs args e' fs2 -> e = e' /\ fs1 = fs2.
Proof.
  intros X X' fs args e e' fs1 fs2 (EU & ER & EO) HU T T' R R' EW Erd Hno H1 H2.
  assert (Ed : forall data pd p, open_data X fs data pd p = open_data X' fs data pd p).
  { intros data pd p. unfold open_data. destruct (fs data) as [raw|]; cbn [unwrap bind]; [|reflexivity].
    destruct p; [reflexivity|]. destruct pd as [f|]; [reflexivity|]. cbn [maybe_process]. rewrite <- EU.
    rewrite (process_elsewhere _ _ (x_script X) (x_script X')) by assumption. reflexivity. }
  assert (Ec : forall data pd input, start_convert X fs data pd input = start_convert X' fs data pd input).
  { intros data pd input. unfold start_convert. destruct (open_token_set fs input); cbn [bind]; try reflexivity. rewrite Ed, Erd. reflexivity. }
  assert (Ep : forall data output, process_command (x_unicode X) (x_script X) fs data output = process_command (x_unicode X') (x_script X') fs data output).
  { intros data output. unfold process_command. destruct (fs data); [|reflexivity]. cbv zeta. destruct (put_file fs output [] data); [|reflexivity].
    rewrite <- EU. rewrite (process_elsewhere _ _ (x_script X) (x_script X')) by assumption. reflexivity. }
  assert (Es : forall data pd input ts size content samples s s' init init',
    start_convert X fs data pd input = Ret (ts, size, content, samples) ->
    par_result ts (x_threads X) init samples (Some size) s -> par_result ts (x_threads X') init' samples (Some size) s' -> s = s').
  { intros data pd input ts size content samples s s' init init' E P P'.
    assert (Hr : seqs_in_range ts).
    { unfold start_convert, open_token_set in E. destruct (fs input) as [text|]; [|discriminate]. cbn [unwrap bind] in E.
      apply bind_ret in E as (ts0 & E0 & E). apply bind_ret in E as ((raw & c0) & _ & E). apply bind_ret in E as (tk & _ & E).
      apply bind_ret in E as (sm & _ & E). apply ret_inj in E. injection E as -> _ _ _.
      intros q i Hq Hi. exact (co_range _ (C60_loaded_file_consistent _ _ E0) q i Hq Hi). }
    pose proof (C11_result_is_unique _ _ _ _ _ _ Hr T P) as Q. pose proof (C11_result_is_unique _ _ _ _ _ _ Hr T' P') as Q'. congruence. }
  assert (Sv : forall f ws, save_files X f ws = save_files X' f ws) by (intros f ws; apply save_elsewhere, EW).
  destruct H1 as [A|data output f ok A W P|data output A W|data r A P|data A P|data pd input tdir A S|data pd input tdir ts size content samples s text f ok A S P T1 F
    |data pd input tdir ts size content samples s A S P T1| | | | | | | | | | | ];
    try (match goal with A : parse_args args = Some (Optimize _ _ _ _ _ _ _ _) |- _ => elim (Hno _ _ _ _ _ _ _ _ A) end);
  destruct H2 as [A'|data' output' f' ok' A' W' P'|data' output' A' W'|data' r' A' P'|data' A' P'|data' pd' input' tdir' A' S'|data' pd' input' tdir' ts' size' content' samples' s' text' f' ok' A' S' P' T2 F'
    |data' pd' input' tdir' ts' size' content' samples' s' A' S' P' T2| | | | | | | | | | | ];
    try (match goal with A : parse_args args = Some (Optimize _ _ _ _ _ _ _ _) |- _ => elim (Hno _ _ _ _ _ _ _ _ A) end);
    try congruence; try (rewrite A in A'; injection A'; intros; subst); try (split; reflexivity); try congruence.
  all: try (rewrite <- Ec, S in S'; try discriminate S'; apply ret_inj in S'; injection S'; intros; subst;
    pose proof (Es _ _ _ _ _ _ _ _ _ _ _ S P P') as K; subst s').
  - rewrite <- Ep, P in P'. injection P' as -> ->. split; reflexivity.
  - rewrite <- ER, T1 in T2. apply ret_inj in T2. subst text'. rewrite <- Sv, F in F'. injection F' as -> ->. split; reflexivity.
  - rewrite <- ER, T1 in T2. discriminate.
  - rewrite <- ER, T1 in T2. discriminate.
Qed.

(** The hypotheses are met: a computer on which the request is served, and another with seven more threads and another clock,
    on which runs end too. *)
Theorem C112_hypotheses_met : exists X X' fs args, same_program X X' /\ x_threads X < x_threads X' /\
  serves X fs args "data" None "sets" TokenSetModel.Raw Bytes 300 None [x61; x62] [x61; x62] /\
  serves X' fs args "data" None "sets" TokenSetModel.Raw Bytes 300 None [x61; x62] [x61; x62] /\
  (exists fs1, ends X fs args Normal fs1) /\ (exists fs2, ends X' fs args Normal fs2).
Proof.
  destruct C98_hypotheses_met as ((X & fs & args & Sv & fs1 & H1) & _).
  set (X' := mkSystem (x_unicode X) (x_script X) (7 + x_threads X) (x_ratio X) (x_reads X) (x_order X) (fun a b => negb (x_clock X a b)) (x_near X) (x_below X)
    (x_rounds X) (x_can_write X)).
  assert (Sv' : serves X' fs args "data" None "sets" TokenSetModel.Raw Bytes 300 None [x61; x62] [x61; x62]).
  { destruct Sv as [S1 S2 S3 S4 S5 S6 S7 [T1 T2 T3 T4] S9]. split; try assumption. split; try assumption. cbn [X' x_threads]. lia. }
  exists X, X', fs, args. split; [split; [reflexivity|split; reflexivity]|]. split; [cbn [X' x_threads]; lia|].
  split; [exact Sv|]. split; [exact Sv'|]. split; [eauto|]. exact (proj1 (C98_optimize_succeeds _ _ _ _ _ _ _ _ _ _ _ _ Sv')).
Qed.
