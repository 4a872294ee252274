(** * Properties C22-C24: saving and loading token sets. *)
From Coq Require Import String.
From Verif Require Import Base BaseLemmas TokenSetModel TokenizerModel TokSpec
  TokenizerProof1 TokenSetProof TokenizerTheory TokenSetProof2 PropTokenizer Utf8 JsonModel JsonProof.
Local Open Scope list_scope.
Local Notation length := List.length.

(** ** Specification *)

(** The number of extension tokens each type works with. *)
Definition fits_type (t : token_type) (n : nat) : Prop :=
  match t with
  | Bits1 => n = 2 | Bits2 => n = 4 | Bits4 => n = 16 | Bytes => n = 0 | BytesHuff => n < 256
  end.

(** The shape of every token set the program builds: numbered extension tokens
    first, then pairwise different non-empty strings [ss], sequences of at least
    two existing tokens. *)
Record shaped (ts : tokenset) (ss : list bstr) : Prop := {
  sh_tokens : tokens ts = map (fun i => Ext (n2b i)) (seq 0 (n_ext_tokens ts)) ++ map Str ss;
  sh_fits : fits_type (ts_type ts) (n_ext_tokens ts);
  sh_nonempty : ~ In [] ss;
  sh_nodup : NoDup ss;
  sh_range : seqs_in_range ts;
  sh_long : forall q, In q (sequences ts) -> 1 < length (seq_tokens q)
}.

(** The fallback sequences a fresh set of the type starts with. *)
Definition fallback_seqs (t : token_type) : list sequence :=
  match t with
  | Bits1 => sequences (new_bits1 Raw false)
  | Bits2 => sequences (new_bits2 Raw false)
  | Bits4 => sequences (new_bits4 Raw false)
  | Bytes | BytesHuff => []
  end.

(** What loading really returns: the flag is lost and the fallback sequences of
    bytes that are not tokens come in front of the saved ones. *)
Definition reloaded (ts : tokenset) (ss : list bstr) : tokenset :=
  mkTS (n_ext_tokens ts) (ts_type ts) (ts_processing ts) false (tokens ts)
       (filter (fun q => negb (existsb (bstr_eqb (seq_string q)) ss)) (fallback_seqs (ts_type ts))
        ++ sequences ts).

(** ** Helpers *)
Lemma fits_lt t n : fits_type t n -> n < 256.
Proof. destruct t; cbn; lia. Qed.

Lemma empty_of_type_ret t n p sp : fits_type t n ->
  empty_of_type t n p sp = Ret (mkTS n t p sp (ext_tokens n) (fallback_seqs t)).
Proof.
  intros H. unfold fallback_seqs. rewrite new_bits1_eq, new_bits2_eq, new_bits4_eq.
  destruct t; cbn [fits_type] in H; subst; unfold empty_of_type.
  - rewrite new_bits1_eq. reflexivity.
  - rewrite new_bits2_eq. reflexivity.
  - rewrite new_bits4_eq. reflexivity.
  - reflexivity.
  - unfold ts_new. apply Nat.ltb_lt in H. rewrite H. reflexivity.
Qed.

Lemma load_tokens_ext l r : forall ts,
  load_tokens ts (map token_to_json (map (fun i => Ext (n2b i)) l) ++ r) = load_tokens ts r.
Proof.
  induction l as [|i l IH]; intros ts; [reflexivity|]. apply IH.
Qed.

Definition drop_shadowed (ss : list bstr) (l : list sequence) : list sequence :=
  filter (fun q => negb (existsb (bstr_eqb (seq_string q)) ss)) l.

Lemma drop_shadowed_nil l : drop_shadowed [] l = l.
Proof. apply filter_all. reflexivity. Qed.

Lemma drop_shadowed_cons s ss l :
  drop_shadowed (s :: ss) l = drop_shadowed ss (filter (fun q => negb (bstr_eqb (seq_string q) s)) l).
Proof.
  unfold drop_shadowed. induction l as [|q l IH]; cbn; [reflexivity|].
  cbn in IH. destruct (bstr_eqb (seq_string q) s); cbn; rewrite IH; reflexivity.
Qed.

Lemma load_tokens_strs ss : forall ts, ~ In [] ss ->
  load_tokens ts (map token_to_json (map Str ss)) =
  Ret (mkTS (n_ext_tokens ts) (ts_type ts) (ts_processing ts) (split_paragraphs ts)
         (tokens ts ++ map Str ss) (drop_shadowed ss (sequences ts))).
Proof.
  induction ss as [|s ss IH]; intros ts Hne.
  - cbn. rewrite app_nil_r, drop_shadowed_nil. destruct ts; reflexivity.
  - unfold load_tokens in *. cbn [map mfold]. rewrite parse_token_to_json. cbn [bind].
    unfold add_token. rewrite (proj2 (bstr_eqb_neq s [])) by (intros ->; apply Hne; left; reflexivity).
    cbn [negb assert_that bind]. rewrite IH by (intros H; apply Hne; right; exact H).
    cbn [add_token_unchecked n_ext_tokens ts_type ts_processing split_paragraphs tokens sequences].
    rewrite drop_shadowed_cons, <- app_assoc. reflexivity.
Qed.

Lemma parse_sequence_tokens toks l js : NoDup toks ->
  mmap (fun i => t <- idx toks i ;; Ret (token_to_json t)) l = Ret js ->
  mmap (fun x => t <- parse_token x ;; unwrap (position (token_eqb t) toks)) js = Ret l.
Proof.
  intros Hnd H. apply mmap_ret in H.
  induction H as [|i j l js Hi _ IH]; [reflexivity|].
  apply bind_ret in Hi as (t & Ht & E). injection E as <-. apply idx_ret in Ht.
  cbn [mmap]. rewrite parse_token_to_json. cbn [bind].
  assert (P : position (token_eqb t) toks = Some i).
  { apply position_Some. split; [exists t; split; [exact Ht|apply token_eqb_eq; reflexivity]|].
    intros k y Hk Hy. apply not_true_iff_false. intros E. apply token_eqb_eq in E. subst y.
    assert (k = i); [|lia]. apply (proj1 (NoDup_nth_error toks) Hnd); [|congruence].
    apply nth_error_Some. congruence. }
  rewrite P. cbn [unwrap bind]. rewrite IH. reflexivity.
Qed.

Lemma load_sequences ts l js : NoDup (tokens ts) -> mmap (sequence_to_json ts) l = Ret js ->
  forall ts1, tokens ts1 = tokens ts ->
  mfold load_sequence js ts1 =
  Ret (mkTS (n_ext_tokens ts1) (ts_type ts1) (ts_processing ts1) (split_paragraphs ts1)
         (tokens ts1) (sequences ts1 ++ l)).
Proof.
  intros Hnd H. apply mmap_ret in H.
  induction H as [|q j l js Hq _ IH]; intros ts1 E1.
  - cbn. rewrite app_nil_r. destruct ts1; reflexivity.
  - cbn [mfold]. unfold sequence_to_json in Hq. apply bind_ret in Hq as (a & Ha & E). injection E as <-.
    unfold load_sequence at 1.
    change (jindex (JObj [(lit "string", bytes_to_json (seq_string q)); (lit "tokens", JArr a)]) (lit "string"))
      with (bytes_to_json (seq_string q)).
    change (jindex (JObj [(lit "string", bytes_to_json (seq_string q)); (lit "tokens", JArr a)]) (lit "tokens"))
      with (JArr a).
    change (bytes_to_json (seq_string q)) with (token_to_json (Str (seq_string q))).
    rewrite parse_token_to_json. cbn [bind as_array]. rewrite E1.
    rewrite (parse_sequence_tokens _ _ _ Hnd Ha). cbn [bind].
    rewrite IH by exact E1. unfold add_sequence; cbn. rewrite <- app_assoc. cbn.
    rewrite E1. destruct q; reflexivity.
Qed.

Lemma NoDup_map_on {A B} (f : A -> B) l :
  (forall a b, In a l -> In b l -> f a = f b -> a = b) -> NoDup l -> NoDup (map f l).
Proof.
  intros H. induction 1 as [|x l Hx _ IH]; cbn; constructor.
  - intros Hin. apply in_map_iff in Hin as (y & E & Hy).
    assert (y = x) by (apply H; [right; exact Hy|left; reflexivity|exact E]). subst; auto.
  - apply IH. intros a b Ha Hb. apply H; right; assumption.
Qed.

Lemma shaped_NoDup ts ss : shaped ts ss -> NoDup (tokens ts).
Proof.
  intros S. rewrite (sh_tokens _ _ S). apply NoDup_app_iff. split; [|split].
  - pose proof (fits_lt _ _ (sh_fits _ _ S)) as Hn.
    apply NoDup_map_on; [|apply seq_NoDup].
    intros a b Ha Hb E. apply in_seq in Ha, Hb. injection E as E. apply (f_equal b2n) in E.
    rewrite !b2n_n2b_small in E by lia. exact E.
  - apply FinFun.Injective_map_NoDup; [intros a b E; congruence|apply (sh_nodup _ _ S)].
  - intros x Hx Hy. apply in_map_iff in Hx as (i & <- & _). apply in_map_iff in Hy as (s & E & _). discriminate.
Qed.

Lemma count_numbers toks :
  length (filter is_number (map token_to_json toks))
  = length (filter (fun t => match t with Ext _ => true | _ => false end) toks).
Proof.
  induction toks as [|[s|n] l IH]; cbn; [reflexivity| |f_equal; exact IH].
  unfold bytes_to_json. destruct (utf8_valid s); exact IH.
Qed.

Lemma shaped_ext_count ts ss : shaped ts ss ->
  length (filter (fun t => match t with Ext _ => true | _ => false end) (tokens ts)) = n_ext_tokens ts.
Proof.
  intros S. rewrite (sh_tokens _ _ S), filter_app, app_length.
  assert (E : filter (fun t => match t with Ext _ => true | _ => false end) (map Str ss) = [])
    by (clear; induction ss; auto).
  rewrite E.
  rewrite filter_all, map_length, seq_length; [cbn; lia|].
  intros x Hx. apply in_map_iff in Hx as (i & <- & _). reflexivity.
Qed.

Lemma shaped_json_wf ts ss : shaped ts ss -> json_wf ts.
Proof.
  intros S. split.
  - symmetry; eapply shaped_ext_count; exact S.
  - eapply shaped_NoDup; exact S.
  - apply (sh_long _ _ S).
Qed.

Lemma to_json_fields ts ss : shaped ts ss -> exists js,
  mmap (sequence_to_json ts) (sequences ts) = Ret js /\
  ts_to_json ts = Ret (JObj ([(lit "processing", JStr (lit (processing_name (ts_processing ts))))]
             ++ (match js with [] => [] | _ => [(lit "sequences", JArr js)] end)
             ++ [(lit "split_paragraphs", JBool (split_paragraphs ts));
                 (lit "tokens", JArr (map token_to_json (tokens ts)));
                 (lit "type", JStr (lit (type_name (ts_type ts))))])).
Proof.
  intros S. unfold ts_to_json. rewrite (jw_filter ts (shaped_json_wf _ _ S)).
  destruct (mmap_total (sequence_to_json ts) (sequences ts)) as (js & Hj).
  - intros q Hq. unfold sequence_to_json.
    destruct (mmap_total (fun i => t <- idx (tokens ts) i ;; Ret (token_to_json t)) (seq_tokens q)) as (a & Ha).
    + intros i Hi. pose proof (sh_range _ _ S q i Hq Hi) as Hr. unfold idx.
      destruct (nth_error (tokens ts) i) eqn:E; [cbn; eauto|].
      apply nth_error_None in E. unfold ntokens in Hr. lia.
    + rewrite Ha. cbn. eauto.
  - exists js. split; [exact Hj|]. rewrite Hj. reflexivity.
Qed.

Lemma load_fields ts ss js extra : shaped ts ss ->
  mmap (sequence_to_json ts) (sequences ts) = Ret js ->
  (extra = (fun fs => fs) \/ exists v, extra = obj_set (lit "stats") v) ->
  ts_from_json (JObj (extra ([(lit "processing", JStr (lit (processing_name (ts_processing ts))))]
             ++ (match js with [] => [] | _ => [(lit "sequences", JArr js)] end)
             ++ [(lit "split_paragraphs", JBool (split_paragraphs ts));
                 (lit "tokens", JArr (map token_to_json (tokens ts)));
                 (lit "type", JStr (lit (type_name (ts_type ts))))])))
  = Ret (reloaded ts ss).
Proof.
  intros S Hj Hx. set (v := JObj _).
  assert (V1 : jindex v (lit "tokens") = JArr (map token_to_json (tokens ts))) by (subst v; destruct js; destruct Hx as [->|(v & ->)]; reflexivity).
  assert (V2 : jindex v (lit "processing") = JStr (lit (processing_name (ts_processing ts)))) by (subst v; destruct js; destruct Hx as [->|(v & ->)]; reflexivity).
  assert (V3 : jindex v (lit "type") = JStr (lit (type_name (ts_type ts)))) by (subst v; destruct js; destruct Hx as [->|(v & ->)]; reflexivity).
  assert (V4 : jget v (lit "split_paragraph") = None)
    by (subst v; destruct js; destruct Hx as [->|(v & ->)]; reflexivity).
  assert (V5 : exists fs, v = JObj fs /\
      assoc (lit "sequences") fs = match js with [] => None | _ => Some (JArr js) end)
    by (subst v; eexists; split; [reflexivity|]; destruct js; destruct Hx as [->|(v & ->)]; reflexivity).
  clearbody v. clear Hx. unfold ts_from_json. rewrite V1. cbn [as_array bind].
  rewrite count_numbers, (shaped_ext_count ts ss S), V2.
  assert (P : parse_processing (JStr (lit (processing_name (ts_processing ts)))) = Ret (ts_processing ts))
    by (destruct (ts_processing ts); reflexivity).
  rewrite P; cbn [bind].
  assert (T : parse_type v = Ret (ts_type ts))
    by (unfold parse_type; rewrite V3; destruct (ts_type ts); reflexivity).
  rewrite T; cbn [bind]. unfold parse_split. rewrite V4. cbn [bind].
  rewrite (empty_of_type_ret _ _ _ _ (sh_fits _ _ S)). cbn [bind].
  set (fb := fallback_seqs (ts_type ts)).
  replace (load_tokens _ (map token_to_json (tokens ts)))
    with (@Ret tokenset (mkTS (n_ext_tokens ts) (ts_type ts) (ts_processing ts) false (tokens ts)
            (drop_shadowed ss fb))).
  2:{ rewrite (sh_tokens _ _ S) at 2. rewrite map_app, load_tokens_ext.
      rewrite load_tokens_strs by apply (sh_nonempty _ _ S).
      cbn [n_ext_tokens ts_type ts_processing split_paragraphs tokens sequences].
      rewrite (sh_tokens _ _ S) at 1. reflexivity. }
  cbn [bind]. destruct V5 as (fs & -> & A). rewrite A.
  assert (L : mfold load_sequence js
      (mkTS (n_ext_tokens ts) (ts_type ts) (ts_processing ts) false (tokens ts) (drop_shadowed ss fb))
      = Ret (reloaded ts ss)).
  { rewrite (load_sequences ts (sequences ts) js (shaped_NoDup _ _ S) Hj) by reflexivity. reflexivity. }
  destruct js as [|j js]; [cbn in L|cbn [as_array bind]]; exact L.
Qed.

(** ** C22 *)
(** For every token set: saving succeeds, and loading what was saved (the
    bare token set, or the token set with statistics as written to the output
    file) restores number of extension tokens, type, processing and tokens, and
    for bytes and byteshuff sets the sequences; the paragraph flag becomes
    false (missing from the full property). *)
Theorem C22_round_trip_partial : forall ts ss, shaped ts ss ->
  (exists j, ts_to_json ts = Ret j /\ ts_from_json j = Ret (reloaded ts ss)) /\
  (forall v, exists j, stats_to_json ts v = Ret j /\ ts_from_json j = Ret (reloaded ts ss)).
Proof.
  intros ts ss S. destruct (to_json_fields ts ss S) as (js & Hj & E). split.
  - eexists. split; [exact E|].
    exact (load_fields ts ss js (fun fs => fs) S Hj (or_introl eq_refl)).
  - intros v. unfold stats_to_json. rewrite E. cbn [bind]. eexists. split; [reflexivity|].
    apply (load_fields ts ss js (obj_set (lit "stats") v)); eauto.
Qed.

(** When the flag was false and the type has no bit fallback, loading is exact. *)
Theorem C22_round_trip_exact_partial : forall ts ss, shaped ts ss ->
  split_paragraphs ts = false -> (ts_type ts = Bytes \/ ts_type ts = BytesHuff) ->
  exists j, ts_to_json ts = Ret j /\ ts_from_json j = Ret ts.
Proof.
  intros ts ss S Hsp Ht. destruct (C22_round_trip_partial ts ss S) as ((j & E & L) & _).
  exists j. split; [exact E|]. rewrite L. unfold reloaded. f_equal.
  destruct ts as [n t p sp toks seqs]; cbn in *. subst sp.
  destruct Ht as [->| ->]; reflexivity.
Qed.

(** A small byteshuff set: "a" is a token, "b" is written "a" 0, "c" is "a" 1. *)
Definition huff_ex : tokenset :=
  mkTS 2 BytesHuff Raw true [Ext x00; Ext x01; Str [x61]; Str [x62; x63]]
       [mkSeq [x62] [2; 0]; mkSeq [x63] [2; 1]].
Example huff_ex_shaped : shaped huff_ex [[x61]; [x62; x63]].
Proof.
  split.
  - reflexivity.
  - cbn. lia.
  - intros [H|[H|[]]]; discriminate.
  - repeat constructor; cbn; intuition discriminate.
  - intros q t [<-|[<-|[]]]; cbn; intuition lia.
  - intros q [<-|[<-|[]]]; cbn; lia.
Qed.

(** The full round trip fails: the saved flag is not read back. *)
Theorem C22_round_trip_refuted : exists ts ss j ts',
  shaped ts ss /\ ts_to_json ts = Ret j /\ ts_from_json j = Ret ts' /\
  split_paragraphs ts = true /\ split_paragraphs ts' = false.
Proof.
  destruct (C22_round_trip_partial _ _ huff_ex_shaped) as ((j & E & L) & _).
  exists huff_ex, [[x61]; [x62; x63]], j, (reloaded huff_ex [[x61]; [x62; x63]]).
  split; [exact huff_ex_shaped|]. split; [exact E|]. split; [exact L|]. split; reflexivity.
Qed.

(** No token set keeps a set flag. *)
Theorem C22_flag_always_lost : forall ts ss j ts', shaped ts ss ->
  ts_to_json ts = Ret j -> ts_from_json j = Ret ts' -> split_paragraphs ts' = false.
Proof.
  intros ts ss j ts' S E L. destruct (C22_round_trip_partial ts ss S) as ((j' & E' & L') & _).
  rewrite E in E'; injection E' as <-. rewrite L in L'; injection L' as ->. reflexivity.
Qed.

(** ** C23 *)
Lemma shaped_str_tokens ts ss : shaped ts ss -> str_tokens ts = ss.
Proof.
  intros S. unfold str_tokens. rewrite (sh_tokens _ _ S), flat_map_app.
  fold (ext_tokens (n_ext_tokens ts)). rewrite str_of_ext. cbn [app].
  clear. induction ss as [|s l IH]; cbn; [reflexivity|f_equal; exact IH].
Qed.

Lemma strings_reloaded ts ss : shaped ts ss ->
  strings (reloaded ts ss) =
  ss ++ map seq_string (drop_shadowed ss (fallback_seqs (ts_type ts))) ++ map seq_string (sequences ts).
Proof.
  intros S. unfold strings. fold (str_tokens (reloaded ts ss)).
  change (str_tokens (reloaded ts ss)) with (str_tokens ts). rewrite (shaped_str_tokens _ _ S).
  unfold reloaded; cbn [sequences]. rewrite map_app. reflexivity.
Qed.

Lemma strings_shaped ts ss : shaped ts ss -> strings ts = ss ++ map seq_string (sequences ts).
Proof.
  intros S. unfold strings. fold (str_tokens ts). rewrite (shaped_str_tokens _ _ S). reflexivity.
Qed.

Lemma fallback_strings t x : (t = Bits1 \/ t = Bits2 \/ t = Bits4) ->
  (In x (map seq_string (fallback_seqs t)) <-> exists b, x = [b]).
Proof.
  intros Ht.
  assert (E : map seq_string (fallback_seqs t) = map (fun b => [b]) all_bytes).
  { unfold fallback_seqs. rewrite new_bits1_eq, new_bits2_eq, new_bits4_eq.
    rewrite <- map_single_all_bytes.
    destruct Ht as [->|[->| ->]]; unfold bits_set; cbn [sequences]; rewrite map_map; reflexivity. }
  rewrite E, in_map_iff. split; [intros (b & <- & _); eauto|].
  intros (b & ->). exists b. split; [reflexivity|apply in_all_bytes].
Qed.

Lemma in_drop_shadowed ss l q : In q (drop_shadowed ss l) <-> In q l /\ ~ In (seq_string q) ss.
Proof.
  unfold drop_shadowed. rewrite filter_In, negb_true_iff. split; intros (H & E); split; auto.
  - intros Hin. assert (existsb (bstr_eqb (seq_string q)) ss = true); [|congruence].
    apply existsb_exists. exists (seq_string q). split; [exact Hin|apply bstr_eqb_refl].
  - apply not_true_iff_false. intros X. apply existsb_exists in X as (s & Hs & X).
    apply bstr_eqb_eq in X. subst s. auto.
Qed.

(** Types without bit fallback: the reloaded set is accepted exactly if the
    saved one was.  (Missing from the full property: bits types.) *)
Theorem C23_reload_usable_partial : forall ts ss j ts',
  shaped ts ss -> (ts_type ts = Bytes \/ ts_type ts = BytesHuff) ->
  ts_to_json ts = Ret j -> ts_from_json j = Ret ts' ->
  ((exists tk, tokenizer_new ts = Ret tk) <-> (exists tk, tokenizer_new ts' = Ret tk)).
Proof.
  intros ts ss j ts' S Ht E L. destruct (C22_round_trip_partial ts ss S) as ((j' & E' & L') & _).
  rewrite E in E'; injection E' as <-. rewrite L in L'; injection L' as ->.
  rewrite !C01_tokenizer_exists_iff_usable, (strings_reloaded _ _ S), (strings_shaped _ _ S).
  destruct Ht as [->| ->]; reflexivity.
Qed.

(** Bits types: an accepted set is still accepted after reloading exactly if
    every byte is a token. *)
Theorem C23_bits_reload_usable_iff : forall ts ss j ts',
  shaped ts ss -> (ts_type ts = Bits1 \/ ts_type ts = Bits2 \/ ts_type ts = Bits4) ->
  (exists tk, tokenizer_new ts = Ret tk) ->
  ts_to_json ts = Ret j -> ts_from_json j = Ret ts' ->
  ((exists tk, tokenizer_new ts' = Ret tk) <-> forall b : byte, In (Str [b]) (tokens ts)).
Proof.
  intros ts ss j ts' S Ht Htk E L. destruct (C22_round_trip_partial ts ss S) as ((j' & E' & L') & _).
  rewrite E in E'; injection E' as <-. rewrite L in L'; injection L' as ->.
  apply C01_tokenizer_exists_iff_usable in Htk as (Hnd & Hne & Hb).
  rewrite (strings_shaped _ _ S) in *.
  rewrite C01_tokenizer_exists_iff_usable, (strings_reloaded _ _ S).
  assert (IT : forall b, In (Str [b]) (tokens ts) <-> In [b] ss).
  { intros b. rewrite <- in_str_tokens, (shaped_str_tokens _ _ S). reflexivity. }
  split.
  - intros (Hn & _) b. apply IT.
    specialize (Hb b). apply in_app_iff in Hb as [Hb|Hb]; [exact Hb|].
    destruct (in_dec (list_eq_dec Byte.byte_eq_dec) [b] ss) as [Hi|Hi]; [exact Hi|exfalso].
    apply NoDup_app_iff in Hn as (_ & Hn & _). apply NoDup_app_iff in Hn as (_ & _ & Hd).
    apply (Hd [b]); [|exact Hb].
    assert (Hf : In [b] (map seq_string (fallback_seqs (ts_type ts)))) by (apply fallback_strings; eauto).
    apply in_map_iff in Hf as (q & Eq & Hq). apply in_map_iff. exists q. split; [exact Eq|].
    apply in_drop_shadowed. rewrite Eq. auto.
  - intros Hall.
    assert (Enil : drop_shadowed ss (fallback_seqs (ts_type ts)) = []).
    { destruct (drop_shadowed ss (fallback_seqs (ts_type ts))) as [|q l] eqn:Ed; [reflexivity|exfalso].
      assert (Hq : In q (drop_shadowed ss (fallback_seqs (ts_type ts)))) by (rewrite Ed; left; reflexivity).
      apply in_drop_shadowed in Hq as (Hq & Hn). apply Hn.
      assert (Hs : In (seq_string q) (map seq_string (fallback_seqs (ts_type ts)))) by (apply in_map; exact Hq).
      apply (fallback_strings _ _ Ht) in Hs as (b & ->). apply IT, Hall. }
    rewrite Enil. cbn [map app]. auto.
Qed.

Lemma shaped_bits_set n t p sp enc : fits_type t n ->
  (forall c d, c < 256 -> In d (enc c) -> d < n) -> (forall c, 1 < length (enc c)) ->
  shaped (bits_set n t p sp enc) [].
Proof.
  intros Hf Hr Hl. split; try exact Hf.
  - cbn [bits_set tokens n_ext_tokens map]. rewrite app_nil_r. reflexivity.
  - intros [].
  - constructor.
  - apply seqs_bits_set; exact Hr.
  - intros q Hq. unfold bits_set in Hq; cbn [sequences] in Hq.
    apply (in_map_iff (fun c => mkSeq [n2b c] (enc c)) (seq 0 256)) in Hq as (c & <- & _). apply Hl.
Qed.

Lemma shaped_new_bits4 p sp : shaped (new_bits4 p sp) [].
Proof.
  rewrite new_bits4_eq. apply shaped_bits_set; [reflexivity| |].
  - intros c d Hc Hd. apply (enc4_bound c d Hc Hd).
  - intros c. cbn. lia.
Qed.

(** A fresh bits4 set, saved and loaded again, makes the tokenizer panic. *)
Theorem C23_reload_usable_refuted : exists ts j ts',
  (exists tk, tokenizer_new ts = Ret tk) /\
  ts_to_json ts = Ret j /\ ts_from_json j = Ret ts' /\ ~ (exists tk, tokenizer_new ts' = Ret tk).
Proof.
  pose proof (shaped_new_bits4 Raw true) as S.
  assert (U : exists tk, tokenizer_new (new_bits4 Raw true) = Ret tk).
  { apply C01_tokenizer_exists_iff_usable. rewrite new_bits4_eq. apply usable_bits_set. }
  assert (Ty : ts_type (new_bits4 Raw true) = Bits4) by (rewrite new_bits4_eq; reflexivity).
  assert (NT : ~ In (Str [x61]) (tokens (new_bits4 Raw true))).
  { rewrite new_bits4_eq, <- in_str_tokens, str_tokens_bits_set. intros []. }
  revert S U Ty NT. generalize (new_bits4 Raw true). intros ts S U Ty NT.
  destruct (C22_round_trip_partial ts [] S) as ((j & E & L) & _).
  exists ts, j, (reloaded ts []). split; [exact U|]. split; [exact E|]. split; [exact L|].
  intros H. apply NT. revert H. rewrite (C23_bits_reload_usable_iff ts [] j _ S) ; eauto.
Qed.

(** ** C24: well-formed token sets with the same text are equal *)
Theorem C24_key_identifies : forall a b sa sb k, shaped a sa -> shaped b sb ->
  get_key a = Ret k -> get_key b = Ret k -> a = b.
Proof.
  intros a b sa sb k Sa Sb. apply get_key_inj; eapply shaped_json_wf; eassumption.
Qed.

Theorem C24_key_exists : forall ts ss, shaped ts ss -> exists k, get_key ts = Ret k.
Proof.
  intros ts ss S. destruct (to_json_fields ts ss S) as (js & _ & E). unfold get_key. rewrite E. cbn. eauto.
Qed.

Example C24_example : get_key huff_ex = Ret (lit
  "{""processing"":""raw"",""sequences"":[{""string"":""b"",""tokens"":[""a"",0]},{""string"":""c"",""tokens"":[""a"",1]}],""split_paragraphs"":true,""tokens"":[0,1,""a"",""bc""],""type"":""byteshuff""}").
Proof. reflexivity. Qed.
