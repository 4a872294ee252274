(** * Properties C56, C57, C60: token set files. *)
From Coq Require Import String.
From Verif Require Import Base BaseLemmas Utf8 TokenSetModel TokenizerModel TokSpec SortLemmas
  TokenizerProof1 TokenSetProof TokenizerTheory TokenSetProof2 PropTokenizer BatchModel JsonModel JsonText JsonProof PropJson
  OptimizeProof3 CommandsModel.
Local Open Scope list_scope.
Local Notation length := List.length.

Lemma assert_ret b u : assert_that b = Ret u -> b = true.
Proof. destruct b; [reflexivity|discriminate]. Qed.

(** ** C60: what loading guarantees for any file *)

(** Numbered extension tokens first, as many as the type needs, then non-empty
    strings; sequences refer to existing tokens. *)
Record consistent (ts : tokenset) : Prop := {
  co_tokens : exists ss, tokens ts = map (fun i => Ext (n2b i)) (seq 0 (n_ext_tokens ts)) ++ map Str ss /\ ~ In [] ss;
  co_fits : fits_type (ts_type ts) (n_ext_tokens ts);
  co_range : forall q i, In q (sequences ts) -> In i (seq_tokens q) -> i < ntokens ts
}.

Lemma empty_consistent ty n p sp ts : empty_of_type ty n p sp = Ret ts ->
  fits_type ty n /\ ts = mkTS n ty p sp (ext_tokens n) (fallback_seqs ty).
Proof.
  intros H. assert (F : fits_type ty n).
  { unfold empty_of_type in H. destruct ty; cbn [fits_type];
      try (apply bind_ret in H as (u & H & _); apply assert_ret in H; apply Nat.eqb_eq in H; exact H).
    unfold ts_new in H. apply bind_ret in H as (u & H & _); apply assert_ret in H. apply Nat.ltb_lt in H. exact H. }
  split; [exact F|]. rewrite (empty_of_type_ret _ _ _ _ F) in H. apply ret_inj in H. symmetry; exact H.
Qed.

Lemma fallback_range ty n q i : fits_type ty n -> In q (fallback_seqs ty) -> In i (seq_tokens q) -> i < n.
Proof.
  intros F Hq Hi. unfold fallback_seqs in Hq. rewrite new_bits1_eq, new_bits2_eq, new_bits4_eq in Hq.
  destruct ty; cbn [fits_type] in F; subst; [..|destruct Hq|destruct Hq].
  - unfold bits_set in Hq; cbn [sequences] in Hq. apply (in_map_iff (fun c => mkSeq [n2b c] _) (seq 0 256)) in Hq as (c & <- & Hc).
    apply in_seq in Hc. apply (enc1_bound c), Hi.
  - unfold bits_set in Hq; cbn [sequences] in Hq. apply (in_map_iff (fun c => mkSeq [n2b c] _) (seq 0 256)) in Hq as (c & <- & Hc).
    apply in_seq in Hc. apply (enc2_bound c), Hi.
  - unfold bits_set in Hq; cbn [sequences] in Hq. apply (in_map_iff (fun c => mkSeq [n2b c] _) (seq 0 256)) in Hq as (c & <- & Hc).
    apply in_seq in Hc. apply (enc4_bound c); [lia|exact Hi].
Qed.

Lemma add_token_consistent ts s ts' i : consistent ts -> add_token ts s = Ret (ts', i) ->
  consistent ts' /\ ts_type ts' = ts_type ts /\ ts_processing ts' = ts_processing ts /\ split_paragraphs ts' = split_paragraphs ts.
Proof.
  intros C H. unfold add_token in H. apply bind_ret in H as (u & Ha & E). apply assert_ret in Ha.
  apply negb_true_iff, bstr_eqb_neq in Ha. apply ret_inj in E. injection E as <- _. clear u i.
  destruct (co_tokens _ C) as (ss & Et & Hne).
  split; [|repeat split]. split.
  - exists (ss ++ [s]). cbn [add_token_unchecked tokens n_ext_tokens]. rewrite Et at 1. rewrite map_app, app_assoc.
    split; [reflexivity|]. intros Hi. apply in_app_iff in Hi as [Hi|[Hi|[]]]; [exact (Hne Hi)|subst s; auto].
  - apply (co_fits _ C).
  - intros q j Hq Hj. cbn [add_token_unchecked sequences] in Hq. apply filter_In in Hq as (Hq & _).
    pose proof (co_range _ C q j Hq Hj). unfold ntokens in *. cbn [add_token_unchecked tokens]. rewrite app_length. lia.
Qed.

Lemma load_tokens_consistent l : forall ts ts', consistent ts -> load_tokens ts l = Ret ts' ->
  consistent ts' /\ ts_type ts' = ts_type ts /\ ts_processing ts' = ts_processing ts /\ split_paragraphs ts' = split_paragraphs ts.
Proof.
  induction l as [|v l IH]; intros ts ts' C H.
  - apply ret_inj in H. subst. auto.
  - unfold load_tokens in *. cbn [mfold] in H. apply bind_ret in H as (ts1 & H1 & H). 
    apply bind_ret in H1 as (tk & _ & H1). destruct tk as [s|b].
    + apply bind_ret in H1 as ((ts2 & i) & H2 & H1). apply ret_inj in H1. subst ts2.
      destruct (add_token_consistent _ _ _ _ C H2) as (C1 & E1 & E2 & E3). destruct (IH _ _ C1 H) as (C' & E1' & E2' & E3'). 
      repeat split; try apply C'; congruence.
    + apply ret_inj in H1. subst ts1. apply IH; assumption.
Qed.

Lemma load_sequence_consistent v : forall ts ts', consistent ts -> load_sequence ts v = Ret ts' ->
  consistent ts' /\ ts_type ts' = ts_type ts /\ ts_processing ts' = ts_processing ts /\ split_paragraphs ts' = split_paragraphs ts.
Proof.
  intros ts ts' C H. unfold load_sequence in H. apply bind_ret in H as (st & _ & H). destruct st as [s|b]; [|discriminate].
  apply bind_ret in H as (l & _ & H). apply bind_ret in H as (toks & Ht & H). apply ret_inj in H. subst ts'.
  split; [|repeat split]. split; try apply C.
  intros q i Hq Hi. unfold add_sequence in *; cbn [sequences tokens] in *. unfold ntokens; cbn [tokens].
  apply in_app_iff in Hq as [Hq|[<-|[]]]; [exact (co_range _ C q i Hq Hi)|].
  cbn [seq_tokens] in Hi. apply mmap_ret in Ht. clear - Ht Hi.
  induction Ht as [|x j l js Hx _ IH]; [destruct Hi|]. destruct Hi as [<-|Hi]; [|auto].
  apply bind_ret in Hx as (t & _ & Hx). destruct (position (token_eqb t) (tokens ts)) as [k|] eqn:P; [|discriminate].
  apply ret_inj in Hx. subst k. apply position_Some in P as ((y & Hy & _) & _). apply nth_error_Some. congruence.
Qed.

Lemma load_sequences_consistent l : forall ts ts', consistent ts -> mfold load_sequence l ts = Ret ts' ->
  consistent ts' /\ ts_type ts' = ts_type ts /\ ts_processing ts' = ts_processing ts /\ split_paragraphs ts' = split_paragraphs ts.
Proof.
  induction l as [|v l IH]; intros ts ts' C H.
  - apply ret_inj in H. subst. auto.
  - cbn [mfold] in H. apply bind_ret in H as (ts1 & H1 & H).
    destruct (load_sequence_consistent _ _ _ C H1) as (C1 & E1 & E2 & E3). destruct (IH _ _ C1 H) as (C' & E1' & E2' & E3').
    repeat split; try apply C'; congruence.
Qed.

(** Whatever JSON value or file is loaded: if loading succeeds, the set is
    consistent. *)
Theorem C60_loaded_value_consistent : forall v ts, ts_from_json v = Ret ts -> consistent ts.
Proof.
  intros v ts H. unfold ts_from_json in H. apply bind_ret in H as (toks & _ & H). cbv zeta in H.
  apply bind_ret in H as (p & _ & H). apply bind_ret in H as (ty & _ & H). apply bind_ret in H as (sp & _ & H).
  apply bind_ret in H as (ts0 & H0 & H). apply bind_ret in H as (ts1 & H1 & H).
  apply empty_consistent in H0 as (F & E0).
  assert (C0 : consistent ts0).
  { subst ts0. split.
    - exists []. cbn [tokens n_ext_tokens map]. rewrite app_nil_r. split; [reflexivity|intros []].
    - exact F.
    - intros q i Hq Hi. cbn [sequences] in Hq. pose proof (fallback_range _ _ _ _ F Hq Hi).
      unfold ntokens; cbn [tokens]. unfold ext_tokens. rewrite map_length, seq_length. assumption. }
  clear E0 F. destruct (load_tokens_consistent _ _ _ C0 H1) as (C1 & _).
  destruct v; try discriminate. destruct (assoc (lit "sequences") fields).
  - apply bind_ret in H as (l & _ & H). apply (load_sequences_consistent _ _ _ C1 H).
  - apply ret_inj in H. subst; exact C1.
Qed.

Theorem C60_loaded_file_consistent : forall text ts, read_token_set text = Ret ts -> consistent ts.
Proof. intros text ts H. unfold read_token_set in H. apply bind_ret in H as (v & _ & H). eapply C60_loaded_value_consistent; exact H. Qed.

(** A loaded set the tokenizer accepts has the shape of the sets the program
    builds, unless the file has a sequence of fewer than two tokens. *)
Theorem C60_loaded_shaped : forall v ts, ts_from_json v = Ret ts -> (exists tk, tokenizer_new ts = Ret tk) ->
  (forall q, In q (sequences ts) -> 1 < length (seq_tokens q)) -> exists ss, shaped ts ss.
Proof.
  intros v ts H Htk Hl. pose proof (C60_loaded_value_consistent _ _ H) as C.
  destruct (co_tokens _ C) as (ss & Et & Hne). exists ss. split.
  - exact Et.
  - apply (co_fits _ C).
  - exact Hne.
  - apply C01_tokenizer_exists_iff_usable in Htk as (Hnd & _). unfold strings in Hnd.
    fold (str_tokens ts) in Hnd. apply NoDup_app_iff in Hnd as (Hnd & _).
    replace ss with (str_tokens ts); [exact Hnd|]. unfold str_tokens. rewrite Et, flat_map_app.
    fold (ext_tokens (n_ext_tokens ts)). rewrite str_of_ext. cbn [app].
    clear. induction ss as [|s l IH]; cbn; [reflexivity|f_equal; exact IH].
  - intros q i Hq Hi. apply (co_range _ C q i Hq Hi).
  - exact Hl.
Qed.

(** ** C56 *)

(** The numbers fit their types and non-integers are written as such. *)
Definition number_text (r : bstr) : Prop := read_number r = Some (JReal r, []).
Record writable (ratio : nat -> nat -> bstr) (s : stats) : Prop := {
  wr_ratio : forall a b, number_text (ratio a b);
  wr_tokens : (N.of_nat (ntokens (st_token_set s)) < 2 ^ 64)%N;
  wr_scanned : (N.of_nat (scanned_bytes s) < 2 ^ 64)%N;
  wr_total : (N.of_nat (total_tokens s) < 2 ^ 64)%N;
  wr_init : forall k, initial_size s = Some k -> (N.of_nat k < 2 ^ 64)%N
}.

Lemma jwf_stats ratio s : writable ratio s -> jwf (stats_object ratio s) /\ jdepth (stats_object ratio s) <= 1.
Proof.
  intros W. unfold stats_object. apply jwf_fields.
  - assert (B : forall kv, In kv [(lit "ntokens", JNum (ntokens (st_token_set s)));
                 (lit "scanned_bytes", JNum (scanned_bytes s)); (lit "total_tokens", JNum (total_tokens s))] ->
      utf8_valid (fst kv) = true /\ jwf (snd kv) /\ jdepth (snd kv) <= 0).
    { intros kv [<-|[<-|[<-|[]]]]; cbn [fst snd]; (split; [reflexivity|]; split; [constructor; apply W|apply le_n]). }
    destruct (initial_size s) as [k|] eqn:E; [|exact B]. intros kv [<-|[<-|H]]; [..|apply B, H]; cbn [fst snd].
    + split; [reflexivity|]. destruct (total_tokens s =? 0); (split; [constructor|apply le_n]). apply (wr_ratio _ _ W).
    + split; [reflexivity|]. split; [constructor; apply (wr_init _ _ W); exact E|apply le_n].
  - destruct (initial_size s); repeat constructor.
Qed.

Lemma obj_set_in k v fs kv : In kv (obj_set k v fs) -> kv = (k, v) \/ In kv fs.
Proof.
  induction fs as [|(k', v') fs IH]; cbn; [intros [<-|[]]; auto|].
  destruct (bstr_cmp k k'); cbn; intros H; destruct H as [<-|H]; auto. destruct (IH H); auto.
Qed.

Lemma cmp_lt_trans x y z : bstr_cmp x y = Lt -> bstr_cmp y z = Lt -> bstr_cmp x z = Lt.
Proof.
  intros H1 H2. pose proof (bstr_cmp_trans x y z) as T. rewrite H1, H2 in T. specialize (T eq_refl eq_refl).
  destruct (bstr_cmp x z) eqn:E; try reflexivity; [|discriminate]. apply bstr_cmp_eq in E. subst z.
  rewrite bstr_cmp_opp, H1 in H2. discriminate.
Qed.

Lemma obj_set_sorted k v fs : StronglySorted (fun a b => bstr_cmp (fst a) (fst b) = Lt) fs ->
  StronglySorted (fun a b => bstr_cmp (fst a) (fst b) = Lt) (obj_set k v fs).
Proof.
  induction 1 as [|(k', v') fs Hs IH Hf]; cbn; [repeat constructor|].
  destruct (bstr_cmp k k') eqn:E.
  - apply bstr_cmp_eq in E. subst k'. constructor; [exact Hs|]. exact Hf.
  - constructor; [constructor; [exact Hs|exact Hf]|]. constructor; [exact E|].
    eapply Forall_impl; [|exact Hf]. cbn. intros a Ha. eapply cmp_lt_trans; [exact E|exact Ha].
  - constructor; [exact IH|]. apply Forall_forall. intros kv Hkv. apply obj_set_in in Hkv as [->|Hkv].
    + cbn. rewrite bstr_cmp_opp, E. reflexivity.
    + rewrite Forall_forall in Hf. apply Hf, Hkv.
Qed.

Lemma jwf_stats_json ts v j : ts_to_json ts = Ret j -> jwf v -> jdepth v <= 1 ->
  exists fs, stats_to_json ts v = Ret (JObj fs) /\ jwf (JObj fs) /\ jdepth (JObj fs) <= 6.
Proof.
  intros H Wv Dv. destruct (jwf_ts _ _ H) as (fs & -> & W & D & _). unfold stats_to_json. rewrite H. cbn [bind].
  eexists. split; [reflexivity|]. apply jwf_fields.
  - inversion W as [| | | | | |fs0 Hf Hs]; subst. rewrite Forall_forall in Hf. cbn [jdepth] in D.
    intros kv Hkv. apply obj_set_in in Hkv as [->|Hkv]; cbn [fst snd].
    + split; [reflexivity|]. split; [exact Wv|lia].
    + destruct (Hf kv Hkv) as (Hk & Hw). split; [apply utf8_valid_spec; exact Hk|]. split; [exact Hw|].
      assert (M : jdepth (snd kv) <= max_depth (map (fun kv => jdepth (snd kv)) fs)).
      { clear - Hkv. unfold max_depth. induction fs as [|a fs IH]; [destruct Hkv|]. cbn [map fold_right].
        destruct Hkv as [->|H]; [lia|]. specialize (IH H). lia. }
      lia.
  - inversion W; subst. apply obj_set_sorted. assumption.
Qed.

(** For every token set and statistics: the files written can be read, give
    the token set (up to what C22 says about loading), and no shorter piece of
    them is accepted. *)
Theorem C56_files_read_back_partial : forall ratio s ss, shaped (st_token_set s) ss -> writable ratio s ->
  exists text1 text2, set_text (st_token_set s) = Ret text1 /\ stats_text ratio s = Ret text2 /\
  read_token_set text1 = Ret (reloaded (st_token_set s) ss) /\
  read_token_set text2 = Ret (reloaded (st_token_set s) ss).
Proof.
  intros ratio s ss S W. set (ts := st_token_set s) in *.
  destruct (C22_round_trip_partial ts ss S) as ((j & E & L) & G).
  destruct (jwf_stats ratio s W) as (W1 & D1).
  destruct (G (stats_object ratio s)) as (j2 & E2 & L2).
  destruct (jwf_stats_json ts _ _ E W1 D1) as (fs & E2' & W2 & D2).
  rewrite E2 in E2'. apply ret_inj in E2'. subst j2.
  destruct (jwf_ts _ _ E) as (fs1 & -> & W3 & D3 & _).
  unfold set_text, stats_text. fold ts. rewrite E, E2. cbn [bind].
  eexists _, _. split; [reflexivity|]. split; [reflexivity|].
  unfold read_token_set. rewrite !parse_show by (assumption || lia). cbn [unwrap bind]. auto.
Qed.

Theorem C56_bytes_sets_unchanged : forall ratio s ss, shaped (st_token_set s) ss -> writable ratio s ->
  split_paragraphs (st_token_set s) = false -> (ts_type (st_token_set s) = Bytes \/ ts_type (st_token_set s) = BytesHuff) ->
  exists text, stats_text ratio s = Ret text /\ read_token_set text = Ret (st_token_set s).
Proof.
  intros ratio s ss S W Hsp Ht. destruct (C56_files_read_back_partial ratio s ss S W) as (t1 & t2 & _ & E & _ & L).
  exists t2. split; [exact E|]. rewrite L. unfold reloaded. f_equal.
  destruct (st_token_set s) as [n t p sp toks seqs]; cbn in *. subst sp. destruct Ht as [->| ->]; reflexivity.
Qed.

(** A file that was cut short is never taken for a token set; no hypothesis on
    the set. *)
Theorem C56_cut_files_rejected : forall ratio s text, 
  (set_text (st_token_set s) = Ret text \/ writable ratio s /\ stats_text ratio s = Ret text) ->
  forall k, k < length text -> read_token_set (firstn k text) = Panic.
Proof.
  intros ratio s text H k Hk.
  assert (P : parse_json (firstn k text) = None); [|unfold read_token_set; rewrite P; reflexivity].
  assert (Hx : skipn k text <> []).
  { intros E. apply (f_equal (@length byte)) in E. rewrite skipn_length in E. cbn in E. lia. }
  assert (Ex : text = firstn k text ++ skipn k text) by (symmetry; apply firstn_skipn).
  destruct H as [H|(W & H)].
  - unfold set_text in H. apply bind_ret in H as (v & E & H). apply ret_inj in H.
    destruct (jwf_ts _ _ E) as (fs & -> & W3 & D3 & _).
    apply (parse_prefix fs _ (skipn k text)); auto; [lia|]. rewrite H. exact Ex.
  - unfold stats_text in H. apply bind_ret in H as (v & E & H). apply ret_inj in H.
    destruct (jwf_stats ratio s W) as (W1 & D1).
    unfold stats_to_json in E. destruct (ts_to_json (st_token_set s)) as [j| |] eqn:Ej; try discriminate.
    destruct (jwf_stats_json _ _ _ Ej W1 D1) as (fs & E' & W2 & D2).
    unfold stats_to_json in E'. rewrite Ej in E'. rewrite E in E'. apply ret_inj in E'. subst v.
    apply (parse_prefix fs _ (skipn k text)); auto; [lia|]. rewrite H. exact Ex.
Qed.

(** The hypotheses are met: the set of C22's example with statistics. *)
Definition huff_stats : stats := mkStats huff_ex 12 (Some 9) 9 [3; 4; 5; 0] [1; 2] [].
Example C56_hypotheses_met : writable (fun _ _ => lit "0.75") huff_stats /\ shaped (st_token_set huff_stats) [[x61]; [x62; x63]] /\
  stats_text (fun _ _ => lit "0.75") huff_stats = Ret (lit
  "{""processing"":""raw"",""sequences"":[{""string"":""b"",""tokens"":[""a"",0]},{""string"":""c"",""tokens"":[""a"",1]}],""split_paragraphs"":true,""stats"":{""bytes_per_token"":0.75,""initial_size"":9,""ntokens"":4,""scanned_bytes"":9,""total_tokens"":12},""tokens"":[0,1,""a"",""bc""],""type"":""byteshuff""}").
Proof.
  split; [|split; [exact huff_ex_shaped|reflexivity]].
  split; try reflexivity. intros k E; injection E as <-. reflexivity.
Qed.

(** ** C57 *)

(** What readers see while a set is being saved over an old one: the old file,
    the new file, or a file that does not load. *)
Theorem C57_replacement_atomic_partial : forall ratio s text d d',
  (set_text (st_token_set s) = Ret text \/ writable ratio s /\ stats_text ratio s = Ret text) ->
  during_write d (file_name (st_token_set s)) text d' ->
  (forall name, name <> file_name (st_token_set s) -> d' name = d name) /\
  (d' (file_name (st_token_set s)) = d (file_name (st_token_set s)) \/
   d' (file_name (st_token_set s)) = Some text \/
   exists cut, d' (file_name (st_token_set s)) = Some cut /\ read_token_set cut = Panic).
Proof.
  intros ratio s text d d' H Hw. destruct Hw as [|k Hk]; [auto|]. split.
  - intros name Hn. unfold put_file. apply String.eqb_neq in Hn. rewrite Hn. reflexivity.
  - unfold put_file. rewrite String.eqb_refl. right. destruct (Nat.eq_dec k (length text)) as [->|Hne].
    + left. rewrite firstn_all. reflexivity.
    + right. eexists. split; [reflexivity|]. eapply C56_cut_files_rejected; [exact H|lia].
Qed.

(** Saves are not atomic: for every save over every old set there is a moment
    at which a crash loses both. *)
Theorem C57_replacement_atomic_refuted : forall ratio s text d old ts,
  (set_text (st_token_set s) = Ret text \/ writable ratio s /\ stats_text ratio s = Ret text) ->
  d (file_name (st_token_set s)) = Some old -> read_token_set old = Ret ts ->
  exists d' cut, during_write d (file_name (st_token_set s)) text d' /\
    d' (file_name (st_token_set s)) = Some cut /\ read_token_set cut = Panic.
Proof.
  intros ratio s text d old ts H Ho Hr. exists (put_file d (file_name (st_token_set s)) (firstn 0 text)), [].
  split; [apply dw_part; lia|]. unfold put_file. rewrite String.eqb_refl. split; [reflexivity|reflexivity].
Qed.

Example C57_hypotheses_met : exists ratio s text ts, writable ratio s /\ stats_text ratio s = Ret text /\
  read_token_set text = Ret ts /\ during_write (fun _ => Some text) (file_name (st_token_set s)) text (fun _ => Some text).
Proof.
  exists (fun _ _ => lit "0.75"), huff_stats. destruct C56_hypotheses_met as (W & S & E).
  destruct (C56_files_read_back_partial _ _ _ S W) as (t1 & t2 & _ & E2 & _ & L). exists t2, (reloaded huff_ex [[x61]; [x62; x63]]).
  split; [exact W|]. split; [exact E2|]. split; [exact L|constructor].
Qed.

(** A file that is not one the program writes: repeated numbers, an object key
    in another order, a sequence through a token. *)
Example C60_example : read_token_set (lit
  "{ ""type"":""byteshuff"", ""tokens"": [9, ""ab"", 9, [255, -1, 258]], ""processing"":""raw"", ""sequences"":[{""string"":""b"",""tokens"":[""ab"",1]}]} ")
  = Ret (mkTS 2 BytesHuff Raw false [Ext x00; Ext x01; Str [x61; x62]; Str [xff; xff; x02]] [mkSeq [x62] [2; 1]]).
Proof. reflexivity. Qed.
