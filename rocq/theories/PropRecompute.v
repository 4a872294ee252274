(** * Property C119: convert-tokens applied to the result of optimize reproduces the file. *)
From Coq Require Import String ZArith.
From Verif Require Import PropProcessing.
From Verif Require Import Base BaseLemmas Utf8 TokenSetModel TokenizerModel TokSpec SortLemmas
  TokenizerProof1 TokenSetProof TokenizerTheory TokenSetProof2 PropTokenizer StatsAlgebra BatchModel PropBatch
  JsonModel JsonText JsonProof PropJson Shaped SamplerModel PropSampler PropSamplerExact ProcessingModel CacheModel PropCache OptBytesModel OptimizeModel
  OptimizeProof1 OptimizeProof2 OptimizeProof3 OptimizeProof4 OptimizeProof5 OptimizeProof6 OptimizeProof7 OptimizeProof8
  PropOptimize PropDeterminism PropFixpoint MainModel PropMain CommandsModel PropFiles PropCommands PropOptFiles PropIncreasing PropOptStats.
Local Open Scope list_scope.
Local Notation length := List.length.

(** Two texts that differ at most in the value of the field for the paragraph rule, which is
    false in the second. *)
Definition same_but_flag (text text' : bstr) : Prop :=
  exists before flag after, (flag = lit "true" \/ flag = lit "false") /\
    text = before ++ lit """split_paragraphs"":" ++ flag ++ after /\
    text' = before ++ lit """split_paragraphs"":" ++ lit "false" ++ after.

(** ** Fields of an object as text *)
Fixpoint show_fields (first : bool) (l : list (bstr * json)) : bstr :=
  match l with
  | [] => []
  | (k, x) :: r => (if first then [] else lit ",") ++ show_str k ++ lit ":" ++ show x ++ show_fields false r
  end.
Lemma show_obj fs : show (JObj fs) = lit "{" ++ show_fields true fs ++ lit "}".
Proof. reflexivity. Qed.
Lemma show_fields_app b l k x r : l <> [] -> show_fields b (l ++ (k, x) :: r) =
  show_fields b l ++ lit "," ++ show_str k ++ lit ":" ++ show x ++ show_fields false r.
Proof.
  revert b. induction l as [|(k0, x0) l IH]; intros b H; [congruence|]. cbn [app show_fields].
  destruct l as [|kx l].
  - cbn [app show_fields]. rewrite app_nil_r, <- !app_assoc. reflexivity.
  - rewrite IH by discriminate. rewrite <- !app_assoc. reflexivity.
Qed.

(** The set with the flag taken away. *)
Definition unflagged (ts : tokenset) : tokenset :=
  mkTS (n_ext_tokens ts) (ts_type ts) (ts_processing ts) false (tokens ts) (sequences ts).

Lemma text_unflagged ratio s s' text text' : st_token_set s' = unflagged (st_token_set s) ->
  initial_size s' = initial_size s -> scanned_bytes s' = scanned_bytes s -> total_tokens s' = total_tokens s ->
  stats_text ratio s = Ret text -> stats_text ratio s' = Ret text' -> same_but_flag text text'.
Proof.
  intros Es Ei Eb Et H H'. unfold stats_text, stats_to_json in H, H'. rewrite Es in H'.
  assert (Eo : stats_object ratio s' = stats_object ratio s).
  { unfold stats_object. rewrite Es, Ei, Eb, Et. reflexivity. }
  rewrite Eo in H'. set (v := stats_object ratio s) in *. clearbody v. clear Eo Es Ei Eb Et. revert H H'.
  generalize (st_token_set s). intros ts H H'. unfold ts_to_json in H, H'.
  cbn [unflagged sequences ts_processing split_paragraphs tokens ts_type] in H'.
  change (sequence_to_json (unflagged ts)) with (sequence_to_json ts) in H'.
  destruct (mmap (sequence_to_json ts) (filter (fun q => 1 <? length (seq_tokens q)) (sequences ts))) as [js| |]; try discriminate.
  cbn [bind] in H, H'. apply ret_inj in H, H'. subst text text'.
  set (A := [(lit "processing", JStr (lit (processing_name (ts_processing ts))))] ++ (match js with [] => [] | _ => [(lit "sequences", JArr js)] end)).
  set (B := [(lit "stats", v); (lit "tokens", JArr (map token_to_json (tokens ts))); (lit "type", JStr (lit (type_name (ts_type ts))))]).
  exists (lit "{" ++ show_fields true A ++ lit ","), (show (JBool (split_paragraphs ts))), (show_fields false B ++ lit "}").
  split; [destruct (split_paragraphs ts); [left|right]; reflexivity|].
  assert (E : forall b, obj_set (lit "stats") v ([(lit "processing", JStr (lit (processing_name (ts_processing ts))))]
             ++ (match js with [] => [] | _ => [(lit "sequences", JArr js)] end)
             ++ [(lit "split_paragraphs", JBool b);
                 (lit "tokens", JArr (map token_to_json (tokens ts)));
                 (lit "type", JStr (lit (type_name (ts_type ts))))]) = A ++ (lit "split_paragraphs", JBool b) :: B).
  { intros b. subst A B. destruct js; reflexivity. }
  assert (Ha : A <> []) by (subst A; discriminate).
  assert (T : forall b, show (JObj (A ++ (lit "split_paragraphs", JBool b) :: B)) =
    (lit "{" ++ show_fields true A ++ lit ",") ++ lit """split_paragraphs"":" ++ show (JBool b) ++ show_fields false B ++ lit "}").
  { intros b. rewrite show_obj, show_fields_app by exact Ha. rewrite <- !app_assoc.
    change (show_str (lit "split_paragraphs")) with (lit """split_paragraphs"""). reflexivity. }
  rewrite !E, !T. split; reflexivity.
Qed.

Lemma reloaded_unflagged ts ss : ts_type ts = Bytes \/ ts_type ts = BytesHuff -> reloaded ts ss = unflagged ts.
Proof. intros [H|H]; unfold reloaded, unflagged; rewrite H; reflexivity. Qed.

Lemma total_unflagged ts samples N M : total_for (unflagged ts) samples N -> total_for ts samples M -> N = M.
Proof.
  intros H H'. assert (D : dict_le ts (unflagged ts)) by (intros q x Hq; exists q; split; [exact Hq|apply le_n]).
  assert (D' : dict_le (unflagged ts) ts) by (intros q x Hq; exists q; split; [exact Hq|apply le_n]).
  pose proof (total_dict_le _ _ _ _ _ D H' H). pose proof (total_dict_le _ _ _ _ _ D' H H'). lia.
Qed.

(** ** C119 *)

(** The result of an optimization of a bytes or byteshuff set is given to convert-tokens, with the
    same data cut into the same pieces: a file of the same name is written, with the same text but for the
    paragraph flag.  In particular all statistics are the same. *)
Theorem C119_conversion_reproduces_result :
  forall U script threads threads' ratio reads reads' order clock rounds n p t raw processed input data m s text name text',
  run_setup threads rounds n p t order reads data input -> 1 <= threads' ->
  maybe_process U script raw processed p = Ret data ->
  optimize_run U script threads reads order clock rounds n p t raw processed input m -> returned m s ->
  t = Bytes \/ t = BytesHuff -> writable ratio s -> stats_text ratio s = Ret text ->
  full_samples reads' data = optimize_samples reads raw data ->
  converts U script threads' ratio reads' raw processed text name text' ->
  name = file_name (st_token_set s) /\ same_but_flag text text'.
Proof.
  intros U script threads threads' ratio reads reads' order clock rounds n p t raw processed input data m s text name text'
    Hs Ht' Ed Hm Hret Hty Hw Et Hsame H.
  destruct (run_facts _ _ _ _ _ _ _ _ _ _ _ _ _ _ _ Hs Ed Hm) as (pre & samples & Ei & Gp & Es & Hne & Hr & Ho).
  pose proof (rs_threads _ _ _ _ _ _ _ _ _ Hs) as Ht. pose proof (rs_order _ _ _ _ _ _ _ _ _ Hs) as Hsh. pose proof (rs_target _ _ _ _ _ _ _ _ _ Hs) as Hsup.
  destruct (C44_result_within_budget _ _ _ _ _ _ _ _ _ _ _ _ Ht Hne Hsh Hsup Gp Hr Ho) as (_ & G2).
  destruct (G2 s Hret) as ((_ & (ss & S) & _ & Ty & Pr) & _ & Hmin).
  destruct (returned_outcome _ _ _ _ _ _ _ _ _ _ _ _ _ Ht Hsh Hsup Gp Hr Ho Hret) as (E1 & _).
  destruct (search_answer _ _ _ _ _ _ _ _ _ _ E1) as (ts & s0 & E0 & E2).
  assert (Ets : st_token_set s = ts) by (rewrite E2; cbn [without_pairs st_token_set]; eapply sync_set, E0).
  destruct (sync_facts ts samples (Some (length raw)) s0) as (_ & F2 & F3 & _); [rewrite <- Ets; exact (sh_range _ _ S)|exact E0|].
  assert (F2' : initial_size s = Some (length raw)) by (rewrite E2; exact F2).
  assert (F3' : scanned_bytes s = length (concat samples)) by (rewrite E2; exact F3).
  destruct (converts_facts U script threads' ratio reads' Ht' _ _ _ _ _ H) as
    (tc & data' & samples' & sc & C1 & C2 & C3 & C4 & C5 & C6 & C7 & C8 & C9 & C10 & C11 & C12).
  destruct (C56_files_read_back_partial ratio s ss S Hw) as (t1 & t2 & _ & Et2 & _ & L).
  rewrite Et in Et2. apply ret_inj in Et2. subst t2. rewrite L in C1. apply ret_inj in C1.
  rewrite reloaded_unflagged in C1 by (rewrite Ty; exact Hty). subst tc.
  change (ts_processing (unflagged (st_token_set s))) with (ts_processing (st_token_set s)) in C2. rewrite Pr, Ed in C2.
  apply ret_inj in C2. subst data'. rewrite Hsame, Es in C3. apply ret_inj in C3. subst samples'.
  split; [rewrite C6; reflexivity|].
  eapply text_unflagged; [exact C9|congruence|congruence| |exact Et|exact C5].
  apply total_for_min in C12, Hmin. exact (total_unflagged _ _ _ _ C12 Hmin).
Qed.

(** convert-tokens does write the file. *)
Theorem C119_conversion_succeeds :
  forall U script threads threads' ratio reads reads' order clock rounds n p t raw processed input data m s text,
  run_setup threads rounds n p t order reads data input -> 1 <= threads' ->
  maybe_process U script raw processed p = Ret data ->
  optimize_run U script threads reads order clock rounds n p t raw processed input m -> returned m s ->
  t = Bytes \/ t = BytesHuff -> writable ratio s -> stats_text ratio s = Ret text ->
  full_samples reads' data = optimize_samples reads raw data ->
  exists text', converts U script threads' ratio reads' raw processed text (file_name (st_token_set s)) text'.
Proof.
  intros U script threads threads' ratio reads reads' order clock rounds n p t raw processed input data m s text
    Hs Ht' Ed Hm Hret Hty Hw Et Hsame.
  destruct (run_facts _ _ _ _ _ _ _ _ _ _ _ _ _ _ _ Hs Ed Hm) as (pre & samples & Ei & Gp & Es & Hne & Hr & Ho).
  pose proof (rs_threads _ _ _ _ _ _ _ _ _ Hs) as Ht. pose proof (rs_order _ _ _ _ _ _ _ _ _ Hs) as Hsh. pose proof (rs_target _ _ _ _ _ _ _ _ _ Hs) as Hsup.
  destruct (C44_result_within_budget _ _ _ _ _ _ _ _ _ _ _ _ Ht Hne Hsh Hsup Gp Hr Ho) as (_ & G2).
  destruct (G2 s Hret) as ((_ & (ss & S) & _ & Ty & Pr) & Gs & _).
  destruct (C56_files_read_back_partial ratio s ss S Hw) as (t1 & t2 & _ & Et2 & _ & L).
  rewrite Et in Et2. apply ret_inj in Et2. subst t2.
  assert (Gr : good_start n p t (Some (reloaded (st_token_set s) ss))) by (apply reloaded_start; [exact S|tauto|exact Gs]).
  rewrite reloaded_unflagged in * by (rewrite Ty; exact Hty). destruct Gr as (sp & V & _).
  destruct (proj2 (C01_tokenizer_exists_iff_usable _) (vi_usable _ _ _ _ V)) as (tk & Htk).
  assert (P : exists sc, par_result (unflagged (st_token_set s)) threads' (full_size data) samples (Some (length raw)) sc).
  { destruct (N.lt_ge_cases (full_size data) small_size) as [Hlt|Hge].
    - eexists. apply pr_small; [exact Hlt|]. apply (sync_eq _ tk Htk (visited_range _ _ _ _ V)).
    - destruct (C12_some_execution_returns _ tk (Some (length raw)) threads' samples Htk (visited_range _ _ _ _ V) Ht' Hne) as (c0 & st & H1 & H2).
      exists st. eapply pr_large; eauto. }
  destruct P as (sc & P). destruct (par_facts _ _ _ _ _ _ (visited_range _ _ _ _ V) Ht' P) as (_ & _ & E1 & _).
  destruct (vi_shaped _ _ _ _ V) as (ss' & S'). rewrite <- E1 in S'. destruct (stats_text_total ratio sc ss' S') as (text' & Et').
  exists text'. change (file_name (st_token_set s)) with (file_name (unflagged (st_token_set s))).
  apply (converts_to U script threads' ratio reads' raw processed text (unflagged (st_token_set s)) data samples sc text' L);
    [change (ts_processing (unflagged (st_token_set s))) with (ts_processing (st_token_set s)); rewrite Pr; exact Ed|rewrite Hsame; exact Es|exact P|exact Et'].
Qed.

(** The pieces are the same for files of at least 2^34 bytes read alike, and for texts of at most 2^20 bytes
    that are read at once. *)
Theorem C119_same_pieces : forall reads reads' raw data,
  ((2 ^ 34 <= N.of_nat (length raw))%N /\ (forall pos, reads' pos = reads pos)) \/
  ((N.of_nat (length raw) < 2 ^ 34)%N /\ utf8 data /\ (0 < N.of_nat (length data) <= 2 ^ 20)%N /\
   forall pos, reads' pos = length data - pos) ->
  full_samples reads' data = optimize_samples reads raw data.
Proof.
  intros reads reads' raw data [(H & R)|(H & Hu & (H0 & Hl) & R)]; unfold optimize_samples.
  - rewrite (proj2 (N.ltb_ge _ _)) by exact H. unfold full_samples. revert R. generalize 0 (S (length data)). clear. intros pos fuel R. revert pos.
    induction fuel as [|f IH]; intros pos; [reflexivity|]. cbn [file_samples]. rewrite R.
    destruct (file_next data (N.to_nat large) pos (reads pos)) as [[(x & q)|]| |]; cbn [bind]; try reflexivity. rewrite IH. reflexivity.
  - rewrite (proj2 (N.ltb_lt _ _)) by exact H.
    assert (Lm : length data <= N.to_nat mega) by (change (2 ^ 20)%N with mega in Hl; lia).
    assert (Ll : N.to_nat mega < N.to_nat large) by (apply Nat.compare_lt_iff; rewrite <- N2Nat.inj_compare; reflexivity).
    unfold full_samples, memory_samples. revert Lm Ll. generalize (N.to_nat mega) (N.to_nat large). intros mg lg Lm Ll.
    assert (S1 : sample_from_vec data = Ret data) by (apply sample_from_vec_ret; auto).
    assert (E : exists k, length data = S k) by (exists (length data - 1); lia). destruct E as (k & E).
    assert (A : file_samples (S (length data)) reads' data lg 0 = Ret [data]).
    { rewrite E. cbn [file_samples]. unfold file_next at 1. rewrite R, Nat.sub_0_r, E. cbn [Nat.eqb].
      rewrite (proj2 (Nat.ltb_lt _ _)) by lia. cbn [skipn]. rewrite <- E, firstn_all, S1. cbn [bind Nat.add].
      unfold file_next. rewrite R, Nat.sub_diag. reflexivity. }
    assert (B : memory_slices (S (length data)) data mg 0 = Ret [data]).
    { rewrite E. cbn [memory_slices]. unfold memory_next at 1. rewrite (proj2 (Nat.ltb_lt _ _)) by lia.
      cbn [Nat.add]. rewrite Nat.min_r by lia. destruct (C29_paragraph_end data (length data) (le_n _)) as (q & Eq & _). rewrite Eq. cbn [bind].
      rewrite Nat.ltb_irrefl. cbn [andb]. rewrite slice_ret by lia. cbn [bind skipn]. rewrite Nat.sub_0_r, firstn_all.
      unfold memory_next. rewrite Nat.ltb_irrefl. reflexivity. }
    rewrite A, B. cbn [bind map]. rewrite (utf8_lossy_valid data Hu). reflexivity.
Qed.

(** A finished run for 300 tokens on two bytes, and the conversion of its result. *)
Theorem C119_hypotheses_met : exists ratio order clock rounds input m s text text',
  run_setup 4 rounds 300 Raw Bytes order two_reads [x61; x62] input /\
  optimize_run no_unicode [] 4 two_reads order clock rounds 300 Raw Bytes [x61; x62] None input m /\ returned m s /\
  writable ratio s /\ stats_text ratio s = Ret text /\
  full_samples two_reads [x61; x62] = optimize_samples two_reads [x61; x62] [x61; x62] /\
  converts no_unicode [] 3 ratio two_reads [x61; x62] None text (file_name (st_token_set s)) text'.
Proof.
  destruct C63_hypotheses_met as (ratio & order & clock & rounds & input & m & s & _ & H1 & H2 & H3 & H4 & H5 & _).
  assert (Ed : maybe_process no_unicode [] [x61; x62] None Raw = Ret [x61; x62]) by reflexivity.
  assert (T : exists text, stats_text ratio s = Ret text).
  { destruct (run_facts _ _ _ _ _ _ _ _ _ _ _ _ _ _ _ H1 Ed H3) as (pre & samples & _ & Gp & _ & Hne & Hr & Ho).
    destruct (C44_result_within_budget _ _ _ _ _ _ _ _ _ _ _ _ (rs_threads _ _ _ _ _ _ _ _ _ H1) Hne (rs_order _ _ _ _ _ _ _ _ _ H1)
      (rs_target _ _ _ _ _ _ _ _ _ H1) Gp Hr Ho) as (_ & G2).
    destruct (G2 s H5) as ((_ & (ss & S) & _) & _). exact (stats_text_total ratio s ss S). }
  destruct T as (text & Et).
  assert (Sp : full_samples two_reads [x61; x62] = optimize_samples two_reads [x61; x62] [x61; x62]).
  { apply C119_same_pieces. right. split; [reflexivity|]. split; [apply utf8_valid_spec; reflexivity|]. split; [split; [reflexivity|discriminate]|].
    intros pos. unfold two_reads. change (length [x61; x62]) with 2. apply Nat.min_r. unfold large. lia. }
  assert (T3 : 1 <= 3) by lia.
  destruct (C119_conversion_succeeds _ _ _ 3 ratio _ two_reads _ _ _ _ _ _ _ _ _ _ _ _ text H1 T3 Ed H3 H5 (or_introl eq_refl) (H4 s H5) Et Sp) as (text' & C).
  exists ratio, order, clock, rounds, input, m, s, text, text'. auto 10.
Qed.
