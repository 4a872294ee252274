(** * The text of a JSON value determines the value. *)
From Coq Require Import String Ascii Decimal DecimalString.
From Verif Require Import Base BaseLemmas TokenSetModel TokenizerModel Utf8 JsonModel JsonText TokenSetProof2.
Local Open Scope list_scope.
Local Notation length := List.length.

Example show_example :
  show (JObj [(lit "a", JArr [JNum 10; JStr (lit "x""y"); JBool true]); (lit "b", JArr [])])
  = lit "{""a"":[10,""x\""y"",true],""b"":[]}".
Proof. reflexivity. Qed.

(** ** Tokens *)
Lemma map_b2n_inj s s' : map (fun b => JNum (b2n b)) s = map (fun b => JNum (b2n b)) s' -> s = s'.
Proof.
  revert s'; induction s as [|b s IH]; intros [|b' s'] E; cbn in E; try discriminate; auto.
  injection E as E1 E2. apply b2n_inj in E1 as ->. f_equal. auto.
Qed.

Lemma bytes_to_json_inj s s' : bytes_to_json s = bytes_to_json s' -> s = s'.
Proof.
  unfold bytes_to_json. destruct (utf8_valid s), (utf8_valid s'); intros E; try discriminate.
  - congruence.
  - injection E as E. apply map_b2n_inj; exact E.
Qed.

Lemma token_to_json_inj t t' : token_to_json t = token_to_json t' -> t = t'.
Proof.
  destruct t as [s|n], t' as [s'|n']; cbn; intros E.
  - f_equal. apply bytes_to_json_inj; exact E.
  - unfold bytes_to_json in E. destruct (utf8_valid s); discriminate.
  - unfold bytes_to_json in E. destruct (utf8_valid s'); discriminate.
  - f_equal. apply b2n_inj. congruence.
Qed.

Lemma parse_token_to_json t : parse_token (token_to_json t) = Ret t.
Proof.
  destruct t as [s|n]; cbn; [|rewrite n2b_b2n; reflexivity].
  unfold bytes_to_json. destruct (utf8_valid s); [reflexivity|]. cbn.
  assert (E : mmap as_i64_u8 (map (fun b => JNum (b2n b)) s) = Ret s).
  { induction s as [|b s IH]; [reflexivity|]. cbn [map mmap as_i64_u8].
    assert (L : (N.of_nat (b2n b) <? 2 ^ 63)%N = true).
    { apply N.ltb_lt. pose proof (b2n_lt b). change (2 ^ 63)%N with 9223372036854775808%N. lia. }
    rewrite L. cbn [bind]. rewrite IH. cbn [bind]. rewrite n2b_b2n. reflexivity. }
  rewrite E. reflexivity.
Qed.

Lemma token_eqb_eq a b : token_eqb a b = true <-> a = b.
Proof.
  destruct a as [s|n], b as [s'|n']; cbn; try (split; discriminate).
  - rewrite bstr_eqb_eq. split; congruence.
  - rewrite byte_eqb_eq. split; congruence.
Qed.

(** ** C24 at the level of values *)
(** What a saved set must satisfy for its text to identify it. *)
Record json_wf (ts : tokenset) : Prop := {
  jw_ext : n_ext_tokens ts = length (filter (fun t => match t with Ext _ => true | _ => false end) (tokens ts));
  jw_nodup : NoDup (tokens ts);
  jw_long : forall q, In q (sequences ts) -> 1 < length (seq_tokens q)
}.

Lemma filter_all {A} (p : A -> bool) l : (forall x, In x l -> p x = true) -> filter p l = l.
Proof.
  induction l as [|x l IH]; intros H; cbn; [reflexivity|].
  rewrite (H x (or_introl eq_refl)). f_equal. apply IH. intros y Hy. apply H; right; exact Hy.
Qed.

Lemma jw_filter ts : json_wf ts ->
  filter (fun q => 1 <? length (seq_tokens q)) (sequences ts) = sequences ts.
Proof.
  intros H. apply filter_all. intros q Hq. apply Nat.ltb_lt. apply (jw_long _ H q Hq).
Qed.

Lemma idx_tokens_json_inj toks l : NoDup toks -> forall l' js,
  mmap (fun i => t <- idx toks i ;; Ret (token_to_json t)) l = Ret js ->
  mmap (fun i => t <- idx toks i ;; Ret (token_to_json t)) l' = Ret js -> l = l'.
Proof.
  intros Hnd l' js H H'. apply mmap_ret in H, H'. revert l' H'.
  induction H as [|i j l js Hi _ IH]; intros l' H'; inversion H' as [|i' ? l2 ? Hi' H2]; subst; [reflexivity|].
  f_equal; [|apply IH; exact H2].
  apply bind_ret in Hi as (t & Ht & E), Hi' as (t' & Ht' & E').
  rewrite <- E' in E. injection E as E. apply token_to_json_inj in E. subst t'.
  apply idx_ret in Ht, Ht'. apply (proj1 (NoDup_nth_error _) Hnd); [|congruence].
  apply nth_error_Some. congruence.
Qed.

Lemma sequences_json_inj ts ts' l : tokens ts = tokens ts' -> NoDup (tokens ts) -> forall l' js,
  mmap (sequence_to_json ts) l = Ret js -> mmap (sequence_to_json ts') l' = Ret js -> l = l'.
Proof.
  intros ET Hnd l' js H H'. apply mmap_ret in H, H'. revert l' H'.
  induction H as [|q j l js Hq _ IH]; intros l' H'; inversion H' as [|q' ? l2 ? Hq' H2]; subst; [reflexivity|].
  f_equal; [|apply IH; exact H2].
  unfold sequence_to_json in Hq, Hq'. rewrite <- ET in Hq'.
  apply bind_ret in Hq as (a & Ha & E), Hq' as (a' & Ha' & E').
  rewrite <- E' in E. injection E as E1 E2. apply bytes_to_json_inj in E1. subst a'.
  destruct q, q'; cbn in *. f_equal; [exact E1|]. eapply idx_tokens_json_inj; eauto.
Qed.

Lemma map_token_json_inj l l' : map token_to_json l = map token_to_json l' -> l = l'.
Proof.
  revert l'; induction l as [|t l IH]; intros [|t' l'] E; cbn in E; try discriminate; auto.
  injection E as E1 E2. apply token_to_json_inj in E1 as ->. f_equal. auto.
Qed.

Lemma ts_to_json_inj ts ts' v : json_wf ts -> json_wf ts' ->
  ts_to_json ts = Ret v -> ts_to_json ts' = Ret v -> ts = ts'.
Proof.
  intros W W' H H'. unfold ts_to_json in H, H'.
  rewrite (jw_filter ts W) in H. rewrite (jw_filter ts' W') in H'.
  apply bind_ret in H as (js & Hj & E), H' as (js' & Hj' & E').
  rewrite <- E' in E. clear E'. injection E as EP ER.
  assert (EQ : js = js' /\ split_paragraphs ts = split_paragraphs ts' /\
               map token_to_json (tokens ts) = map token_to_json (tokens ts') /\
               lit (type_name (ts_type ts)) = lit (type_name (ts_type ts'))).
  { destruct js, js'; cbn [app] in ER; try discriminate; injection ER; intros; subst; repeat split; congruence. }
  destruct EQ as (-> & E2 & E3 & E4).
  apply map_token_json_inj in E3. apply lit_inj in EP, E4.
  assert (ES : sequences ts = sequences ts').
  { eapply sequences_json_inj; eauto. apply (jw_nodup _ W). }
  pose proof (jw_ext _ W) as X. pose proof (jw_ext _ W') as X'. rewrite <- E3 in X'.
  assert (Eproc : ts_processing ts = ts_processing ts')
    by (destruct (ts_processing ts), (ts_processing ts'); try reflexivity; discriminate).
  assert (Etype : ts_type ts = ts_type ts')
    by (destruct (ts_type ts), (ts_type ts'); try reflexivity; discriminate).
  destruct ts, ts'; cbn in *. congruence.
Qed.

(** *** The value of a token set is written and read back unchanged *)
Lemma jwf_byte b : jwf (JNum (b2n b)).
Proof. constructor. pose proof (b2n_lt b). change (2 ^ 64)%N with 18446744073709551616%N. lia. Qed.

Lemma jwf_bytes s : jwf (bytes_to_json s) /\ jdepth (bytes_to_json s) <= 1.
Proof.
  unfold bytes_to_json. destruct (utf8_valid s) eqn:E.
  - split; [constructor; apply utf8_valid_spec; exact E|cbn; lia].
  - split.
    + constructor. apply Forall_forall. intros x Hx. apply in_map_iff in Hx as (b & <- & _). apply jwf_byte.
    + cbn [jdepth]. apply le_n_S. clear E. induction s as [|b s IH]; [apply le_n|]. exact IH.
Qed.

Lemma jwf_token t : jwf (token_to_json t) /\ jdepth (token_to_json t) <= 1.
Proof. destruct t as [s|b]; [apply jwf_bytes|]. split; [apply jwf_byte|cbn; lia]. Qed.

Lemma max_depth_le l n : (forall x, In x l -> x <= n) -> max_depth l <= n.
Proof.
  induction l as [|x l IH]; intros H; cbn; [lia|].
  apply Nat.max_lub; [apply H; left; reflexivity|apply IH; intros y Hy; apply H; right; exact Hy].
Qed.

Lemma jwf_items l n : (forall v, In v l -> jwf v /\ jdepth v <= n) ->
  jwf (JArr l) /\ jdepth (JArr l) <= S n.
Proof.
  intros H. split.
  - constructor. apply Forall_forall. intros v Hv. apply H, Hv.
  - cbn [jdepth]. apply le_n_S, max_depth_le. intros x Hx. apply in_map_iff in Hx as (v & <- & Hv). apply H, Hv.
Qed.

Lemma jwf_fields fs n : (forall kv, In kv fs -> utf8_valid (fst kv) = true /\ jwf (snd kv) /\ jdepth (snd kv) <= n) ->
  StronglySorted (fun a b => bstr_cmp (fst a) (fst b) = Lt) fs ->
  jwf (JObj fs) /\ jdepth (JObj fs) <= S n.
Proof.
  intros H Hs. split.
  - constructor; [|exact Hs]. apply Forall_forall. intros kv Hkv. destruct (H _ Hkv) as (H1 & H2 & _).
    split; [apply utf8_valid_spec; exact H1|exact H2].
  - cbn [jdepth]. apply le_n_S, max_depth_le. intros x Hx. apply in_map_iff in Hx as (kv & <- & Hkv). apply H, Hkv.
Qed.

Lemma jwf_sequence ts q v : sequence_to_json ts q = Ret v -> jwf v /\ jdepth v <= 3.
Proof.
  unfold sequence_to_json. intros H. apply bind_ret in H as (js & Hj & E). injection E as <-.
  apply jwf_fields.
  - intros kv [<-|[<-|[]]]; cbn [fst snd].
    + split; [reflexivity|]. pose proof (jwf_bytes (seq_string q)) as (W & D). split; [exact W|lia].
    + split; [reflexivity|]. apply jwf_items. intros v Hv. apply mmap_ret in Hj.
      induction Hj as [|i j l js Hi _ IH]; [destruct Hv|]. destruct Hv as [<-|Hv]; [|auto].
      apply bind_ret in Hi as (t & _ & E). injection E as <-. apply jwf_token.
  - repeat constructor.
Qed.

Lemma jwf_ts ts v : ts_to_json ts = Ret v ->
  exists fs, v = JObj fs /\ jwf v /\ jdepth v <= 5 /\ ~ In (lit "stats") (map fst fs).
Proof.
  unfold ts_to_json. intros H. apply bind_ret in H as (js & Hj & E). injection E as <-.
  assert (W : forall j, In j js -> jwf j /\ jdepth j <= 3).
  { intros j Hin. apply mmap_ret in Hj. induction Hj as [|q j' l js Hq _ IH]; [destruct Hin|].
    destruct Hin as [<-|Hin]; [eapply jwf_sequence; exact Hq|auto]. }
  eexists. split; [reflexivity|]. rewrite <- and_assoc. split.
  - apply jwf_fields.
    + intros kv Hkv. destruct Hkv as [<-|Hkv]; cbn [fst snd].
      * split; [reflexivity|]. split; [constructor|cbn; lia]. apply utf8_valid_spec. destruct (ts_processing ts); reflexivity.
      * apply in_app_iff in Hkv as [Hkv|[<-|[<-|[<-|[]]]]]; cbn [fst snd].
        -- destruct js as [|j js]; [destruct Hkv|]. destruct Hkv as [<-|[]]. cbn [fst snd].
           split; [reflexivity|]. apply jwf_items. exact W.
        -- split; [reflexivity|]. split; [constructor|cbn; lia].
        -- split; [reflexivity|]. destruct (jwf_items (map token_to_json (tokens ts)) 1) as (W1 & D1).
           { intros x Hx. apply in_map_iff in Hx as (t & <- & _). apply jwf_token. }
           split; [exact W1|lia].
        -- split; [reflexivity|]. split; [constructor|cbn; lia]. apply utf8_valid_spec. destruct (ts_type ts); reflexivity.
    + clear. destruct js as [|j js]; cbn [app]; repeat constructor.
  - clear. destruct js as [|j js]; cbn; intuition discriminate.
Qed.

Lemma show_ts_inj ts ts' v v' : ts_to_json ts = Ret v -> ts_to_json ts' = Ret v' -> show v = show v' -> v = v'.
Proof.
  intros H H' E. destruct (jwf_ts _ _ H) as (fs & _ & W & D & _), (jwf_ts _ _ H') as (fs' & _ & W' & D' & _).
  assert (P : parse_json (show v) = parse_json (show v')) by (rewrite E; reflexivity).
  rewrite !parse_show in P by (assumption || lia). congruence.
Qed.

Lemma get_key_inj ts ts' k : json_wf ts -> json_wf ts' ->
  get_key ts = Ret k -> get_key ts' = Ret k -> ts = ts'.
Proof.
  intros W W' H H'. unfold get_key in *.
  apply bind_ret in H as (v & Hv & E), H' as (v' & Hv' & E').
  rewrite <- E' in E. injection E as E. apply (show_ts_inj ts ts' v v' Hv Hv') in E. subst v'.
  eapply ts_to_json_inj; eauto.
Qed.
