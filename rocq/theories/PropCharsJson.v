(** * C97: the file written by the character optimizer describes its token set. *)
From Coq Require Import String Sorted Permutation.
From Verif Require Import Base BaseLemmas Utf8 SortLemmas JsonModel JsonText JsonProof PropFiles PropCommands JsonRead PrettyModel PropPretty.
From Verif Require Import ProcessingModel PropProcessing CountModel PropCount OptBytesProof TokenSetProof.
From Verif Require Import CharsModel CharsOptProof PropCharsTok PropCharsOpt PropCharsBpe CharsJsonModel.
Local Open Scope list_scope.
Local Notation length := List.length.

(** ** Specification: what a reader finds in the file *)

(** The code of a character: the one listed under encodings, or its own token. *)
Definition file_code (encs : list (bstr * json)) (c : bstr) : list json :=
  match assoc c encs with Some (JArr l) => l | _ => [JStr c] end.

(** The ways to write a text with the tokens of the file: strings that are
    tokens, and characters by their codes. *)
Inductive file_writes (toks : list json) (encs : list (bstr * json)) : bstr -> list json -> Prop :=
| fw_nil : file_writes toks encs [] []
| fw_token s r out : In (JStr s) toks -> s <> [] -> file_writes toks encs r out ->
    file_writes toks encs (s ++ r) (JStr s :: out)
| fw_code c l r out : assoc c encs = Some (JArr l) -> file_writes toks encs r out ->
    file_writes toks encs (c ++ r) (l ++ out).

(** the least number of tokens for a text *)
Definition file_least (toks : list json) (encs : list (bstr * json)) (t : bstr) (k : nat) : Prop :=
  (exists out, file_writes toks encs t out /\ length out = k) /\
  forall out, file_writes toks encs t out -> k <= length out.

(** ** The set that was made *)
Record made_set (samples : list bstr) (n_ext : nat) (tops strs : list bstr) (ts : cset) : Prop := {
  ms_tokens : c_tokens ts = map CExt (seq 0 n_ext) ++ map CChar tops ++ map CStr strs;
  ms_ext : n_ext <= 8;
  ms_distinct : NoDup (tops ++ strs);
  ms_utf8 : Forall utf8 (tops ++ strs);
  ms_long : Forall (fun s => ~ utf8_char s) strs;
  ms_keys : forall c, In c (map fst (c_enc ts)) <-> In c (data_chars samples);
  ms_nodup : NoDup (map fst (c_enc ts));
  ms_chars : Forall utf8_char (map fst (c_enc ts));
  ms_codes : forall c e, In (c, e) (c_enc ts) -> exists i top ds, nth_error tops i = Some top /\
     e = (n_ext + i) :: ds /\ (forall d, In d ds -> d < n_ext) /\ (ds = [] -> c = top);
  ms_tops : forall i top, nth_error tops i = Some top -> In (top, [n_ext + i]) (c_enc ts);
  ms_code_ok : code_ok n_ext ts;
  ms_set_ok : cset_ok ts
}.

Lemma in_sget_nodup {V} (m : smap V) k v : NoDup (map fst m) -> In (k, v) m -> sget m k = Some v.
Proof.
  induction m as [|(a & b) m IH]; cbn [map fst]; intros Hn Hi; [destruct Hi|]. inversion Hn as [|? ? Hx Hn']; subst.
  cbn. destruct (bstr_eqb_spec k a) as [->|Hne].
  - destruct Hi as [E|Hi]; [congruence|]. exfalso. apply Hx. apply (in_map fst) in Hi. exact Hi.
  - destruct Hi as [E|Hi]; [congruence|]. apply IH; assumption.
Qed.

Lemma made_set_0 samples n ts0 : Forall utf8 samples -> 3 <= n -> optimize_chars_by_ext (count_all samples) n = Ret ts0 ->
  exists n_ext tops, made_set samples n_ext tops [] ts0.
Proof.
  intros Hu Hn E. destruct (by_ext_ok samples n Hu Hn) as (ts & k & splits & groups & E' & Hk & _ & Hb & Hc & Hlen & Hm & _).
  assert (ts = ts0) by congruence. subst ts. exists k, (map sp_top splits).
  pose proof (chars_made_code _ _ _ _ Hm) as Hco. destruct Hm as [M1 M2 M3 M4 M5].
  destruct (count_all_ok samples Hu) as (A & B & C & _ & Hin). rewrite Hc in M2.
  assert (Hnd : NoDup (map fst (c_enc ts0))).
  { eapply Permutation_NoDup; [symmetry; exact M2|]. apply increasing_NoDup. exact B. }
  assert (Hch : Forall utf8_char (map fst (c_enc ts0))).
  { rewrite Forall_forall in A |- *. intros c Hi. apply A. eapply Permutation_in; [exact M2|exact Hi]. }
  assert (Htops : forall i top, nth_error (map sp_top splits) i = Some top -> In (top, [k + i]) (c_enc ts0)).
  { intros i top Ei. rewrite nth_error_map in Ei. destruct (nth_error splits i) as [sp|] eqn:Es; [|discriminate]. injection Ei as <-. exact (M5 i sp Es). }
  split.
  - rewrite M1. cbn [map]. rewrite app_nil_r, map_map. f_equal. apply map_ext_in. intros i Hi. apply in_seq in Hi. f_equal. apply Nat.mod_small. lia.
  - lia.
  - rewrite app_nil_r. apply NoDup_nth_error. intros i j Hi Eij.
    destruct (nth_error (map sp_top splits) i) as [top|] eqn:Ei; [|apply nth_error_None in Ei; lia].
    symmetry in Eij. pose proof (Htops _ _ Ei) as H1. pose proof (Htops _ _ Eij) as H2.
    apply (in_sget_nodup _ _ _ Hnd) in H1. apply (in_sget_nodup _ _ _ Hnd) in H2. rewrite H1 in H2. injection H2 as H2. lia.
  - rewrite app_nil_r. apply Forall_forall. intros top Hi. apply In_nth_error in Hi as (i & Ei). apply Htops in Ei.
    apply (in_map fst) in Ei. rewrite Forall_forall in Hch. apply utf8_one, Hch, Ei.
  - constructor.
  - intros c. rewrite <- Hin. split; apply Permutation_in; [exact M2|symmetry; exact M2].
  - exact Hnd.
  - exact Hch.
  - intros c e Hi. destruct (M3 c e Hi) as (i & sp & ds & H1 & H2 & H3 & H4). exists i, (sp_top sp), ds.
    rewrite nth_error_map, H1. auto.
  - exact Htops.
  - exact Hco.
  - apply built_ok, Hb.
Qed.

Lemma made_stands samples n_ext tops strs ts i s : made_set samples n_ext tops strs ts ->
  (stands_for ts i s <-> n_ext <= i /\ nth_error (tops ++ strs) (i - n_ext) = Some s).
Proof.
  intros H. unfold stands_for. rewrite (ms_tokens _ _ _ _ _ H). split.
  - intros (t & Et & Es). destruct (Nat.lt_ge_cases i n_ext) as [Hi|Hi].
    + rewrite nth_error_app1 in Et by (rewrite map_length, seq_length; exact Hi). apply nth_error_In, in_map_iff in Et as (j & <- & _). discriminate.
    + split; [exact Hi|]. rewrite nth_error_app2 in Et by (rewrite map_length, seq_length; exact Hi). rewrite map_length, seq_length in Et.
      destruct (Nat.lt_ge_cases (i - n_ext) (length tops)) as [Hj|Hj].
      * rewrite nth_error_app1 in Et by (rewrite map_length; exact Hj). rewrite nth_error_app1 by exact Hj.
        rewrite nth_error_map in Et. destruct (nth_error tops (i - n_ext)); [|discriminate]. injection Et as <-. exact Es.
      * rewrite nth_error_app2 in Et by (rewrite map_length; exact Hj). rewrite nth_error_app2 by exact Hj. rewrite map_length in Et.
        rewrite nth_error_map in Et. destruct (nth_error strs _); [|discriminate]. injection Et as <-. exact Es.
  - intros (Hi & E). rewrite nth_error_app2 by (rewrite map_length, seq_length; exact Hi). rewrite map_length, seq_length.
    destruct (Nat.lt_ge_cases (i - n_ext) (length tops)) as [Hj|Hj].
    + rewrite nth_error_app1 in E by exact Hj. exists (CChar s). split; [|reflexivity].
      rewrite nth_error_app1 by (rewrite map_length; exact Hj). rewrite nth_error_map, E. reflexivity.
    + rewrite nth_error_app2 in E by exact Hj. exists (CStr s). split; [|reflexivity].
      rewrite nth_error_app2 by (rewrite map_length; exact Hj). rewrite map_length, nth_error_map, E. reflexivity.
Qed.

Lemma made_set_more samples n_ext tops ts0 strs ts : made_set samples n_ext tops [] ts0 -> new_strings ts0 strs ts ->
  made_set samples n_ext tops strs ts.
Proof.
  intros H0. induction 1 as [|strs ts s H IH Hu Hn (i & j & a & b & Fa & Na & Fb & Nb & Es)]; [exact H0|].
  pose proof (made_stands _ _ _ _ _ i a IH) as _.
  assert (Hok : cset_ok (fst (add_string ts s))) by (apply (cset_ok_snoc ts (CStr s) s); [apply IH|reflexivity|exact Hu]).
  assert (Hl : n_ext <= length (c_tokens ts)).
  { rewrite (ms_tokens _ _ _ _ _ IH), app_length, map_length, seq_length. lia. }
  pose proof (code_ok_string n_ext ts s Hl (ms_code_ok _ _ _ _ _ IH)) as Hco.
  assert (Hnew : ~ In s (tops ++ strs)).
  { intros Hi. apply In_nth_error in Hi as (q & Eq). apply (Hn (n_ext + q)). apply (made_stands _ _ _ _ _ _ _ IH). split; [lia|].
    replace (n_ext + q - n_ext) with q by lia. exact Eq. }
  destruct IH as [I1 I2 I3 I4 I5 I6 I7 I8 I9 I10 I11 I12]. cbn [add_string fst] in *. split; cbn [c_tokens c_enc]; try assumption.
  - rewrite I1, <- !app_assoc. rewrite map_app. reflexivity.
  - rewrite app_assoc. apply NoDup_app_intro; [exact I3|repeat constructor; intros []|]. intros x Hx [<-|[]]. exact (Hnew Hx).
  - rewrite app_assoc. apply Forall_app. split; [exact I4|]. constructor; [exact Hu|constructor].
  - apply Forall_app. split; [exact I5|]. constructor; [|constructor]. intros Hc.
    apply (char_not_joined s a b Hc); [eapply ok_utf8; [exact I12|exact Fa]|exact Na|exact Nb|exact Es].
Qed.

(** ** The JSON value *)
Section File.
Variables (samples : list bstr) (n_ext : nat) (tops strs : list bstr) (ts : cset).
Hypothesis H : made_set samples n_ext tops strs ts.

Let toks := tokens_to_json ts.

Lemma toks_eq : toks = map JNum (seq 0 n_ext) ++ map JStr (tops ++ strs).
Proof. unfold toks, tokens_to_json. rewrite (ms_tokens _ _ _ _ _ H), !map_app, !map_map. reflexivity. Qed.

Lemma toks_nodup : NoDup toks.
Proof.
  rewrite toks_eq. apply NoDup_app_intro.
  - apply NoDup_map_inj; [congruence|apply seq_NoDup].
  - apply NoDup_map_inj; [congruence|apply (ms_distinct _ _ _ _ _ H)].
  - intros x Hx Hy. apply in_map_iff in Hx as (i & <- & _). apply in_map_iff in Hy as (s & E & _). discriminate.
Qed.

Lemma toks_str i s : nth_error toks i = Some (JStr s) <-> stands_for ts i s.
Proof.
  rewrite (made_stands _ _ _ _ _ i s H), toks_eq. split.
  - intros E. destruct (Nat.lt_ge_cases i n_ext) as [Hi|Hi].
    + rewrite nth_error_app1 in E by (rewrite map_length, seq_length; exact Hi). apply nth_error_In, in_map_iff in E as (j & E & _). discriminate.
    + split; [exact Hi|]. rewrite nth_error_app2 in E by (rewrite map_length, seq_length; exact Hi). rewrite map_length, seq_length, nth_error_map in E.
      destruct (nth_error (tops ++ strs) _); [|discriminate]. injection E as ->. reflexivity.
  - intros (Hi & E). rewrite nth_error_app2 by (rewrite map_length, seq_length; exact Hi). rewrite map_length, seq_length, nth_error_map, E. reflexivity.
Qed.

Lemma toks_num i : nth_error toks i = Some (JNum i) <-> i < n_ext.
Proof.
  rewrite toks_eq. split.
  - intros E. destruct (Nat.lt_ge_cases i n_ext) as [Hi|Hi]; [exact Hi|].
    rewrite nth_error_app2 in E by (rewrite map_length, seq_length; exact Hi). apply nth_error_In, in_map_iff in E as (j & E & _). discriminate.
  - intros Hi. rewrite nth_error_app1 by (rewrite map_length, seq_length; exact Hi). rewrite nth_error_map, nth_error_nth' with (d := 0) by (rewrite seq_length; exact Hi).
    cbn [option_map]. rewrite seq_nth by exact Hi. reflexivity.
Qed.

Lemma in_toks s : In (JStr s) toks <-> exists i, stands_for ts i s.
Proof.
  split.
  - intros Hi. apply In_nth_error in Hi as (i & Ei). exists i. apply toks_str, Ei.
  - intros (i & Hi). apply toks_str in Hi. eapply nth_error_In, Hi.
Qed.

Lemma code_json c e : sget (c_enc ts) c = Some e ->
  exists l, mmap (fun i => t <- idx (c_tokens ts) i ;; Ret (ctoken_to_json t)) e = Ret l /\
    Forall2 (fun i x => nth_error toks i = Some x) e l.
Proof.
  intros E. assert (R : forall i, In i e -> exists t, nth_error (c_tokens ts) i = Some t).
  { intros i Hi. destruct (nth_error (c_tokens ts) i) as [t|] eqn:En; [eauto|]. exfalso. apply nth_error_None in En.
    rewrite (ms_tokens _ _ _ _ _ H), !app_length, !map_length, seq_length in En.
    apply sget_in in E. destruct (ms_codes _ _ _ _ _ H _ _ E) as (k & top & ds & H1 & -> & H3 & _).
    assert (k < length tops) by (apply nth_error_Some; congruence). destruct Hi as [<-|Hi]; [lia|]. specialize (H3 _ Hi). lia. }
  clear E. induction e as [|i e IH]; [exists []; split; [reflexivity|constructor]|].
  destruct IH as (l & E1 & E2); [intros j Hj; apply R; right; exact Hj|]. destruct (R i (or_introl eq_refl)) as (t & Et).
  exists (ctoken_to_json t :: l). cbn [mmap]. unfold idx at 1. rewrite Et. cbn [unwrap bind]. rewrite E1. cbn [bind]. split; [reflexivity|].
  constructor; [|exact E2]. unfold toks, tokens_to_json. rewrite nth_error_map, Et. reflexivity.
Qed.

(** the codes that are listed *)
Definition listed (c : bstr) (v : json) : Prop :=
  exists e l, sget (c_enc ts) c = Some e /\ 1 < length e /\ v = JArr l /\ Forall2 (fun i x => nth_error toks i = Some x) e l.

Lemma listed_fun c v v' : listed c v -> listed c v' -> v = v'.
Proof.
  intros (e & l & E & _ & -> & F) (e' & l' & E' & _ & -> & F'). assert (e' = e) by congruence. subst e'. f_equal.
  clear E E'. revert l' F'. induction F as [|i x e l Hx F IH]; intros l' F'; inversion F' as [|? x' ? l'' Hx' F'']; subst; [reflexivity|].
  f_equal; [congruence|apply IH; exact F''].
Qed.

Lemma encodings_ok : exists encs, encodings_to_json ts = Ret (JObj encs) /\
  StronglySorted (fun a b => bstr_cmp (fst a) (fst b) = Lt) encs /\
  (forall kv, In kv encs -> listed (fst kv) (snd kv)) /\
  (forall c v, assoc c encs = Some v <-> listed c v).
Proof.
  unfold encodings_to_json.
  match goal with |- context [mfold ?f _ _] => set (body := f) end.
  assert (G : forall l out, StronglySorted (fun a b => bstr_cmp (fst a) (fst b) = Lt) out -> (forall kv, In kv out -> listed (fst kv) (snd kv)) ->
     exists encs, mfold body l out = Ret encs /\ StronglySorted (fun a b => bstr_cmp (fst a) (fst b) = Lt) encs /\
       (forall kv, In kv encs -> listed (fst kv) (snd kv)) /\
       (forall c v, (In c l -> listed c v -> assoc c encs = Some v) /\ (assoc c out = Some v -> assoc c encs = Some v))).
  { induction l as [|c l IH]; intros out Hs Ho.
    - exists out. split; [reflexivity|]. split; [exact Hs|]. split; [exact Ho|]. intros c v. split; [intros []|auto].
    - cbn [mfold]. unfold body at 1. destruct (sget (c_enc ts) c) as [e|] eqn:Ee; cbn [bind].
      + destruct (Nat.leb_spec (length e) 1) as [Hle|Hlt]; cbn [bind].
        * destruct (IH out Hs Ho) as (encs & R1 & R2 & R3 & R4). exists encs. split; [exact R1|]. split; [exact R2|]. split; [exact R3|].
          intros c' v. split; [|exact (proj2 (R4 c' v))]. intros [<-|Hi] Hl; [|exact (proj1 (R4 c' v) Hi Hl)]. destruct Hl as (e' & l' & Ee' & Hlen & _).
          assert (e' = e) by congruence. subst. lia.
        * destruct (code_json c e Ee) as (js & Ej & Fj). rewrite Ej. cbn [bind].
          assert (Hc : listed c (JArr js)) by (exists e, js; auto).
          destruct (IH (obj_set c (JArr js) out)) as (encs & R1 & R2 & R3 & R4).
          -- apply obj_set_sorted, Hs.
          -- intros kv Hkv. apply obj_set_in in Hkv as [->|Hkv]; [exact Hc|apply Ho, Hkv].
          -- exists encs. split; [exact R1|]. split; [exact R2|]. split; [exact R3|]. intros c' v. split.
             ++ intros [<-|Hi] Hl; [|exact (proj1 (R4 c' v) Hi Hl)]. rewrite (listed_fun _ _ _ Hl Hc). apply (proj2 (R4 c (JArr js))). apply assoc_obj_set.
             ++ intros Ea. apply (proj2 (R4 c' v)). destruct (bstr_eqb c' c) eqn:Ec.
                ** apply bstr_eqb_eq in Ec. subst c'. rewrite assoc_obj_set. f_equal.
                   assert (Hi : In (c, v) out).
                   { clear - Ea. induction out as [|(k & w) out IH]; [discriminate|]. cbn in Ea. destruct (bstr_eqb c k) eqn:Ek; [|right; auto].
                     apply bstr_eqb_eq in Ek. subst k. injection Ea as ->. left; reflexivity. }
                   eapply listed_fun; [exact Hc|]. exact (Ho _ Hi).
                ** rewrite assoc_other by exact Ec. exact Ea.
      + destruct (IH out Hs Ho) as (encs & R1 & R2 & R3 & R4). exists encs. split; [exact R1|]. split; [exact R2|]. split; [exact R3|].
        intros c' v. split; [|exact (proj2 (R4 c' v))]. intros [<-|Hi] Hl; [|exact (proj1 (R4 c' v) Hi Hl)]. destruct Hl as (e' & l' & Ee' & _). congruence. }
  destruct (G (map fst (c_enc ts)) []) as (encs & R1 & R2 & R3 & R4); [constructor|intros kv []|].
  exists encs. rewrite R1. split; [reflexivity|]. split; [exact R2|]. split; [exact R3|]. intros c v. split.
  - intros Ea. assert (Hi : In (c, v) encs).
    { clear - Ea. induction encs as [|(k & w) out IH]; [discriminate|]. cbn in Ea. destruct (bstr_eqb c k) eqn:Ek; [|right; auto].
      apply bstr_eqb_eq in Ek. subst k. injection Ea as ->. left; reflexivity. }
    exact (R3 _ Hi).
  - intros Hl. apply (proj1 (R4 c v)); [|exact Hl]. destruct Hl as (e & _ & Ee & _). apply sget_in, (in_map fst) in Ee. exact Ee.
Qed.

Lemma top_code i c : stands_for ts i c -> utf8_char c -> exists e, sget (c_enc ts) c = Some [e].
Proof.
  intros Hi Hc. apply (made_stands _ _ _ _ _ i c H) in Hi as (_ & Hi).
  destruct (Nat.lt_ge_cases (i - n_ext) (length tops)) as [Hj|Hj].
  - rewrite nth_error_app1 in Hi by exact Hj. apply (ms_tops _ _ _ _ _ H) in Hi. eexists. apply in_sget_nodup; [apply H|exact Hi].
  - rewrite nth_error_app2 in Hi by exact Hj. apply nth_error_In in Hi. pose proof (ms_long _ _ _ _ _ H) as L. rewrite Forall_forall in L.
    destruct (L _ Hi Hc).
Qed.

Lemma listed_char c v : listed c v -> utf8_char c /\ forall i, ~ stands_for ts i c.
Proof.
  intros (e & l & Ee & Hl & _). pose proof Ee as Ei. apply sget_in, (in_map fst) in Ei. cbn [fst] in Ei.
  pose proof (ms_chars _ _ _ _ _ H) as C. rewrite Forall_forall in C. specialize (C _ Ei). split; [exact C|].
  intros i Hi. destruct (top_code i c Hi C) as (e' & E'). assert (e = [e']) by congruence. subst e. cbn in Hl. lia.
Qed.

Lemma unlisted_char c e : sget (c_enc ts) c = Some e -> length e <= 1 -> exists i, e = [i] /\ stands_for ts i c.
Proof.
  intros E Hl. apply sget_in in E. destruct (ms_codes _ _ _ _ _ H _ _ E) as (k & top & ds & H1 & -> & H3 & H4).
  destruct ds as [|d ds]; [|cbn in Hl; lia]. exists (n_ext + k). split; [reflexivity|]. rewrite (H4 eq_refl).
  apply (made_stands _ _ _ _ _ _ _ H). split; [lia|]. replace (n_ext + k - n_ext) with k by lia. rewrite nth_error_app1; [exact H1|].
  apply nth_error_Some. congruence.
Qed.

Variable encs : list (bstr * json).
Hypothesis Hencs : forall c v, assoc c encs = Some v <-> listed c v.

Notation stand := (Forall2 (fun i x => nth_error toks i = Some x)).

Lemma writes_made t out : file_writes toks encs t out -> exists ps ids, made_of ts t ps /\ emits ts ps ids /\ stand ids out /\
  (forall c, In (PLit c) ps -> exists e, sget (c_enc ts) c = Some e).
Proof.
  induction 1 as [|s r out Hi Hs Hw (ps & ids & A & B & C & D)|c l r out Ha Hw (ps & ids & A & B & C & D)].
  - exists [], []. split; [constructor|]. split; [constructor|]. split; [constructor|]. intros c [].
  - apply In_nth_error in Hi as (i & Ei). exists (PTok i :: ps), (i :: ids). split; [constructor; [|exact A]|].
    + constructor; [apply toks_str, Ei|exact Hs].
    + split; [constructor; exact B|]. split; [constructor; assumption|]. intros c [Hc|Hc]; [discriminate|auto].
  - apply Hencs in Ha. destruct (listed_char _ _ Ha) as (Hch & Hno). destruct Ha as (e & l' & Ee & Hl & El & F). injection El as <-.
    exists (PLit c :: ps), (e ++ ids). split; [constructor; [constructor; assumption|exact A]|].
    split; [constructor; [unfold char_encoding; rewrite Ee; reflexivity|exact B]|]. split; [apply Forall2_app; assumption|].
    intros c' [Hc|Hc]; [injection Hc as <-; eauto|auto].
Qed.

Lemma made_writes t ps : made_of ts t ps -> (forall c, In (PLit c) ps -> exists e, sget (c_enc ts) c = Some e) ->
  exists ids out, emits ts ps ids /\ file_writes toks encs t out /\ stand ids out.
Proof.
  induction 1 as [|p s r ps Hp Hm IH]; intros Hk.
  - exists [], []. repeat constructor.
  - destruct IH as (ids & out & A & B & C); [intros c Hc; apply Hk; right; exact Hc|].
    inversion Hp as [i s0 Hf Hne E1 E2|c Hc Hno E1 E2]; subst.
    + exists (i :: ids), (JStr s :: out). split; [constructor; exact A|]. apply toks_str in Hf. split; [|constructor; assumption].
      constructor; [eapply nth_error_In, Hf|exact Hne|exact B].
    + destruct (Hk s (or_introl eq_refl)) as (e & Ee). destruct (code_json s e Ee) as (l & _ & F).
      exists (e ++ ids), (l ++ out). split; [constructor; [unfold char_encoding; rewrite Ee; reflexivity|exact A]|].
      split; [|apply Forall2_app; assumption]. constructor; [|exact B]. apply Hencs. exists e, l. split; [exact Ee|]. split; [|auto].
      destruct (Nat.le_gt_cases (length e) 1) as [Hl|Hl]; [|exact Hl]. destruct (unlisted_char s e Ee Hl) as (i & _ & Hi). destruct (Hno i Hi).
Qed.

Lemma stand_inj ids ids' out : stand ids out -> stand ids' out -> ids = ids'.
Proof.
  intros F. revert ids'. induction F as [|i x ids out Hx F IH]; intros ids' F'; inversion F' as [|i' ? ids'' ? Hx' F'']; subst; [reflexivity|].
  f_equal; [|apply IH; exact F'']. pose proof toks_nodup as N. apply (proj1 (NoDup_nth_error toks) N); [|congruence].
  apply nth_error_Some. congruence.
Qed.

Lemma file_inj t1 t2 out : file_writes toks encs t1 out -> file_writes toks encs t2 out -> t1 = t2.
Proof.
  intros W1 W2. destruct (writes_made _ _ W1) as (ps1 & ids1 & A1 & B1 & C1 & D1). destruct (writes_made _ _ W2) as (ps2 & ids2 & A2 & B2 & C2 & D2).
  rewrite (stand_inj _ _ _ C2 C1) in B2.
  apply (ids_inj n_ext ts (ms_code_ok _ _ _ _ _ H) t1 ps1 A1 t2 ps2 ids1 A2); [|exact B1|exact B2].
  intros c [Hc|Hc]; auto.
Qed.

Lemma data_known t ps c : made_of ts t ps -> (forall c, In c (chars t) -> In c (data_chars samples)) -> In (PLit c) ps ->
  exists e, sget (c_enc ts) c = Some e.
Proof.
  intros Hm Hd Hi. apply in_sget. apply (ms_keys _ _ _ _ _ H). apply Hd. eapply made_lit_chars; eauto. apply H.
Qed.

Lemma file_can_write t : (forall c, In c (chars t) -> In c (data_chars samples)) -> utf8 t -> exists out, file_writes toks encs t out.
Proof.
  intros Hd Hu. destruct (process_slice_ok ts t (ms_set_ok _ _ _ _ _ H) Hu) as (st & ps & _ & Hm & _).
  destruct (made_writes t ps Hm) as (ids & out & _ & W & _); [intros c; apply data_known with (t := t); assumption|]. eauto.
Qed.

Lemma best_least t ps : (forall c, In c (chars t) -> In c (data_chars samples)) -> (forall c, code_len ts c < 256) ->
  best_pieces ts t ps -> file_least toks encs t (cost ts ps).
Proof.
  intros Hd Hlen (Hm & Hb). assert (K : forall ps, made_of ts t ps -> forall c, In (PLit c) ps -> exists e, sget (c_enc ts) c = Some e).
  { intros ps' Hm' c. apply data_known with (t := t); assumption. }
  assert (L : forall ps ids, (forall c, In (PLit c) ps -> exists e, sget (c_enc ts) c = Some e) -> emits ts ps ids -> cost ts ps = length ids).
  { intros ps' ids Hk He. apply cost_ids; [|exact He]. intros c Hc. destruct (Hk c Hc) as (e & Ee). exists e. split; [exact Ee|].
    specialize (Hlen c). unfold code_len, char_encoding in Hlen. rewrite Ee in Hlen. exact Hlen. }
  split.
  - destruct (made_writes t ps Hm (K ps Hm)) as (ids & out & He & W & F). exists out. split; [exact W|].
    rewrite (L ps ids (K ps Hm) He). symmetry. eapply Forall2_length; exact F.
  - intros out W. destruct (writes_made _ _ W) as (ps' & ids & A & B & C & D). rewrite <- (Forall2_length _ _ _ C), <- (L ps' ids D B). apply Hb, A.
Qed.
End File.

(** ** The text *)
Lemma pretty_text_written v : forall ind, spaces ind -> written v (pretty_text ind v).
Proof.
  induction v using json_ind2; intros ind Hi; try (apply w_scalar; reflexivity).
  - destruct l as [|x0 l0]; [exact (w_arr [] [] (wi_nil true [] eq_refl))|]. cbn [pretty_text].
    match goal with |- context [?f false l0] => set (go := f) end.
    assert (Hin : spaces (ind ++ lit "  ")) by (apply spaces_app; [exact Hi|reflexivity]).
    inversion H as [|? ? Hx0 Hr]; subst.
    assert (G : witems false l0 (go false l0 ++ [x0a] ++ ind)).
    { clear H. induction Hr as [|x r Hx _ IH]; [cbn [go app]; apply wi_nil; exact (spaces_app [x0a] ind eq_refl Hi)|].
      cbn [go]. fold go. specialize (Hx _ Hin).
      pose proof (wi_cons false x r [] ([x0a] ++ ind ++ lit "  ") _ _ eq_refl (spaces_app [x0a] _ eq_refl Hin) Hx IH) as W.
      change (lit ",") with [x2c]. cbn [app] in W |- *. repeat (rewrite <- app_assoc in W; cbn [app] in W). repeat (rewrite <- app_assoc; cbn [app]). exact W. }
    pose proof (wi_cons true x0 l0 [] ([x0a] ++ ind ++ lit "  ") _ _ eq_refl (spaces_app [x0a] _ eq_refl Hin) (Hx0 _ Hin) G) as W.
    apply w_arr in W. change (lit "[") with [x5b]. cbn [app] in W |- *. repeat (rewrite <- app_assoc in W; cbn [app] in W). repeat (rewrite <- app_assoc; cbn [app]). exact W.
  - destruct fs as [|(k0, x0) l0]; [exact (w_obj [] [] (wf_nil true [] eq_refl))|]. cbn [pretty_text].
    match goal with |- context [?f false l0] => set (go := f) end.
    assert (Hin : spaces (ind ++ lit "  ")) by (apply spaces_app; [exact Hi|reflexivity]).
    inversion H as [|? ? Hx0 Hr]; subst. cbn [snd] in Hx0. change (lit ": ") with ([x3a] ++ [x20]) in *.
    assert (G : wfields false l0 (go false l0 ++ [x0a] ++ ind)).
    { clear H. induction Hr as [|(k & x) r Hx _ IH]; [cbn [go app]; apply wf_nil; exact (spaces_app [x0a] ind eq_refl Hi)|].
      cbn [go]. fold go. cbn [snd] in Hx. specialize (Hx _ Hin).
      pose proof (wf_cons false k x r [] ([x0a] ++ ind ++ lit "  ") [] [x20] _ _ eq_refl (spaces_app [x0a] _ eq_refl Hin) eq_refl eq_refl Hx IH) as W.
      change (lit ",") with [x2c]. cbn [app] in W |- *. repeat (rewrite <- app_assoc in W; cbn [app] in W). repeat (rewrite <- app_assoc; cbn [app]). exact W. }
    pose proof (wf_cons true k0 x0 l0 [] ([x0a] ++ ind ++ lit "  ") [] [x20] _ _ eq_refl (spaces_app [x0a] _ eq_refl Hin) eq_refl eq_refl (Hx0 _ Hin) G) as W.
    apply w_obj in W. change (lit "{") with [x7b]. cbn [app] in W |- *. repeat (rewrite <- app_assoc in W; cbn [app] in W). repeat (rewrite <- app_assoc; cbn [app]). exact W.
Qed.

(** ** C97 *)

(** What the file says, besides the statistics *)
Definition file_says (text : bstr) (toks : list json) (encs : list (bstr * json)) : Prop :=
  exists v, parse_json text = Some v /\ jget v (lit "type") = Some (JStr (lit "chars")) /\
    jget v (lit "tokens") = Some (JArr toks) /\ jget v (lit "encodings") = Some (JObj encs).

Lemma file_value samples n_ext tops strs ratio init st :
  made_set samples n_ext tops strs (cst_set st) -> (N.of_nat (length (c_tokens (cst_set st))) <= 2 ^ 16)%N ->
  (N.of_nat (cst_total st) < 2 ^ 64)%N -> (N.of_nat init < 2 ^ 64)%N -> (forall a b, number_text (ratio a b)) ->
  exists text encs, chars_file ratio init st = Ret text /\
    (forall c v, assoc c encs = Some v <-> listed (cst_set st) c v) /\
    parse_json text = Some (JObj [(lit "encodings", JObj encs);
       (lit "stats", JObj [(lit "bytes_per_token", if cst_total st =? 0 then JNull else JReal (ratio init (cst_total st)));
                           (lit "initial_size", JNum init); (lit "ntokens", JNum (length (c_tokens (cst_set st))));
                           (lit "total_tokens", JNum (cst_total st))]);
       (lit "tokens", JArr (tokens_to_json (cst_set st))); (lit "type", JStr (lit "chars"))]).
Proof.
  intros Hm Hn Ht Hi Hr. destruct (encodings_ok _ _ _ _ _ Hm) as (encs & E1 & E2 & E3 & E4).
  unfold chars_file, cstats_to_json. rewrite E1. cbn [bind]. eexists. exists encs. split; [reflexivity|]. split; [exact E4|].
  match goal with |- parse_json (pretty_text [] ?v) = _ => set (val := v) end.
  assert (W64 : forall k, (N.of_nat k <= 2 ^ 16)%N -> (N.of_nat k < 2 ^ 64)%N).
  { intros k Hk. change (2 ^ 64)%N with 18446744073709551616%N. change (2 ^ 16)%N with 65536%N in Hk. lia. }
  assert (Wt : forall x, In x (tokens_to_json (cst_set st)) -> jwf x /\ jdepth x <= 0).
  { intros x Hx. rewrite (toks_eq _ _ _ _ _ Hm) in Hx. apply in_app_iff in Hx as [Hx|Hx]; apply in_map_iff in Hx as (y & <- & Hy).
    - split; [|apply le_n]. constructor. apply in_seq in Hy. apply W64. pose proof (ms_ext _ _ _ _ _ Hm).
      change (2 ^ 16)%N with 65536%N. lia.
    - split; [|apply le_n]. constructor. pose proof (ms_utf8 _ _ _ _ _ Hm) as U. rewrite Forall_forall in U. apply U, Hy. }
  assert (W : jwf val /\ jdepth val <= 4).
  { unfold val. apply jwf_fields.
    - intros kv [<-|[<-|[<-|[<-|[]]]]]; cbn [fst snd]; (split; [reflexivity|]).
      + destruct (jwf_fields encs 1) as (A & B).
        * intros (c & x) Hkv. destruct (E3 _ Hkv) as (e & l & Ee & Hl & Ex & F). cbn [fst snd] in *. subst x. split.
          -- apply utf8_valid_spec, utf8_one. pose proof (ms_chars _ _ _ _ _ Hm) as C. rewrite Forall_forall in C. apply C.
             apply sget_in, (in_map fst) in Ee. exact Ee.
          -- apply jwf_items. intros x Hx. apply Wt. clear - F Hx. induction F as [|i y e l Hy F IH]; [destruct Hx|].
             destruct Hx as [<-|Hx]; [eapply nth_error_In, Hy|auto].
        * exact E2.
        * split; [exact A|lia].
      + destruct (jwf_fields [(lit "bytes_per_token", if cst_total st =? 0 then JNull else JReal (ratio init (cst_total st)));
                           (lit "initial_size", JNum init); (lit "ntokens", JNum (length (c_tokens (cst_set st))));
                           (lit "total_tokens", JNum (cst_total st))] 0) as (A & B).
        * intros kv [<-|[<-|[<-|[<-|[]]]]]; cbn [fst snd]; (split; [reflexivity|]).
          -- destruct (cst_total st =? 0); (split; [constructor|apply le_n]). apply Hr.
          -- split; [constructor; exact Hi|apply le_n].
          -- split; [constructor; apply W64; exact Hn|apply le_n].
          -- split; [constructor; exact Ht|apply le_n].
        * repeat constructor.
        * split; [exact A|lia].
      + destruct (jwf_items _ _ Wt) as (A & B). split; [exact A|lia].
      + split; [constructor; apply utf8_valid_spec; reflexivity|cbn; lia].
    - repeat constructor. }
  rewrite <- (app_nil_r (pretty_text [] val)). apply parse_written; [apply W|destruct W; lia| |reflexivity].
  apply pretty_text_written. reflexivity.
Qed.

Lemma run_made order samples n st : (forall k l, Permutation (order k l) l) -> Forall utf8 samples -> (N.of_nat n <= 2 ^ 16)%N ->
  optimize_chars_tokens order samples n = Ret st ->
  exists n_ext tops strs, made_set samples n_ext tops strs (cst_set st) /\ length (c_tokens (cst_set st)) = n /\
    least_total (cst_set st) samples (cst_total st).
Proof.
  intros Ho Hu Hn E. destruct (Nat.lt_ge_cases n 3) as [H3|H3].
  { exfalso. unfold optimize_chars_tokens in E. rewrite (proj1 (C74_number_of_extension_tokens samples n Hu) H3) in E. discriminate. }
  destruct (C75_fills_the_set_partial order samples n Ho Hu H3 Hn) as (ts0 & v0 & E0 & _ & [(st' & strs & E' & Hs & Hl & Hm & _)|(E' & _)]);
    rewrite E in E'; [|discriminate]. injection E' as <-.
  destruct (made_set_0 samples n ts0 Hu H3 E0) as (n_ext & tops & M0). exists n_ext, tops, strs.
  split; [eapply made_set_more; eauto|]. auto.
Qed.

(** The file can always be written and read; its tokens are the tokens of the set in the order of
    their ids, each once; every character of the data has in the file the code the set gives it; the
    characters listed under encodings are those of the data without a token; the numbers are those of
    the set. *)
Theorem C97_file_describes_set : forall order samples n ratio init st,
  (forall k l, Permutation (order k l) l) -> Forall utf8 samples -> (N.of_nat n <= 2 ^ 16)%N ->
  optimize_chars_tokens order samples n = Ret st ->
  (N.of_nat (cst_total st) < 2 ^ 64)%N -> (N.of_nat init < 2 ^ 64)%N -> (forall a b, number_text (ratio a b)) ->
  exists text toks encs, chars_file ratio init st = Ret text /\ file_says text toks encs /\
    length toks = n /\ NoDup toks /\
    (forall i s, nth_error toks i = Some (JStr s) <-> stands_for (cst_set st) i s) /\
    (forall i d, nth_error (c_tokens (cst_set st)) i = Some (CExt d) <-> nth_error toks i = Some (JNum d)) /\
    (forall c, In c (data_chars samples) -> exists e, char_encoding (cst_set st) c = Ret e /\
       Forall2 (fun i x => nth_error toks i = Some x) e (file_code encs c)) /\
    (forall c, assoc c encs <> None <-> In c (data_chars samples) /\ ~ In (JStr c) toks) /\
    exists v, parse_json text = Some v /\ jindex (jindex v (lit "stats")) (lit "ntokens") = JNum n /\
      jindex (jindex v (lit "stats")) (lit "total_tokens") = JNum (cst_total st) /\
      jindex (jindex v (lit "stats")) (lit "initial_size") = JNum init.
Proof.
  intros order samples n ratio init st Ho Hu Hn E Ht Hi Hr.
  destruct (run_made order samples n st Ho Hu Hn E) as (n_ext & tops & strs & M & Hlen & _).
  destruct (file_value samples n_ext tops strs ratio init st M) as (text & encs & F1 & F2 & F3); try assumption; [rewrite Hlen; exact Hn|].
  exists text, (tokens_to_json (cst_set st)), encs. split; [exact F1|]. split; [eexists; split; [exact F3|]; split; [reflexivity|]; split; reflexivity|].
  split; [unfold tokens_to_json; rewrite map_length; exact Hlen|]. split; [eapply toks_nodup, M|]. split; [intros i s; eapply toks_str, M|].
  split.
  { intros i d. unfold tokens_to_json. rewrite nth_error_map. destruct (nth_error (c_tokens (cst_set st)) i) as [[k|c|s]|]; cbn; split; intros X; congruence. }
  split; [|split].
  - intros c Hc. apply (ms_keys _ _ _ _ _ M) in Hc. apply in_sget in Hc as (e & Ee). exists e. split; [unfold char_encoding; rewrite Ee; reflexivity|].
    destruct (Nat.le_gt_cases (length e) 1) as [Hl|Hl].
    + destruct (unlisted_char _ _ _ _ _ M c e Ee Hl) as (i & -> & Hs). unfold file_code.
      destruct (assoc c encs) as [x|] eqn:Ea.
      * apply F2 in Ea as (e' & l & Ee' & Hl' & _). assert (e' = [i]) by congruence. subst e'. cbn in Hl'. lia.
      * constructor; [|constructor]. apply (toks_str _ _ _ _ _ M). exact Hs.
    + destruct (code_json _ _ _ _ _ M c e Ee) as (l & _ & F). assert (Ha : assoc c encs = Some (JArr l)) by (apply F2; exists e, l; auto).
      unfold file_code. rewrite Ha. exact F.
  - intros c. split.
    + intros Ha. destruct (assoc c encs) as [x|] eqn:Ea; [|congruence]. apply F2 in Ea. destruct (listed_char _ _ _ _ _ M c x Ea) as (Hch & Hno).
      destruct Ea as (e & l & Ee & _). split; [apply (ms_keys _ _ _ _ _ M); apply sget_in, (in_map fst) in Ee; exact Ee|].
      intros Hin. apply (in_toks _ _ _ _ _ M) in Hin as (i & Hs). exact (Hno i Hs).
    + intros (Hc & Hno). apply (ms_keys _ _ _ _ _ M) in Hc. apply in_sget in Hc as (e & Ee).
      destruct (Nat.le_gt_cases (length e) 1) as [Hl|Hl].
      * exfalso. destruct (unlisted_char _ _ _ _ _ M c e Ee Hl) as (i & -> & Hs). apply Hno. apply (in_toks _ _ _ _ _ M). eauto.
      * destruct (code_json _ _ _ _ _ M c e Ee) as (l & _ & F). assert (Ha : assoc c encs = Some (JArr l)) by (apply F2; exists e, l; auto). congruence.
  - eexists. split; [exact F3|]. rewrite Hlen. split; [reflexivity|]. split; reflexivity.
Qed.

(** The file is enough to decode: two texts that it lets one write with the same tokens are equal.
    Every text of characters of the data can be written.  If no code is longer than 255 tokens, the
    total in the statistics is the sum of the least numbers of tokens with which the samples can be
    written. *)
Theorem C97_file_decodes : forall order samples n ratio init st text toks encs,
  (forall k l, Permutation (order k l) l) -> Forall utf8 samples -> (N.of_nat n <= 2 ^ 16)%N ->
  optimize_chars_tokens order samples n = Ret st ->
  (N.of_nat (cst_total st) < 2 ^ 64)%N -> (N.of_nat init < 2 ^ 64)%N -> (forall a b, number_text (ratio a b)) ->
  chars_file ratio init st = Ret text -> file_says text toks encs ->
  (forall t1 t2 out, file_writes toks encs t1 out -> file_writes toks encs t2 out -> t1 = t2) /\
  (forall t, utf8 t -> (forall c, In c (chars t) -> In c (data_chars samples)) -> exists out, file_writes toks encs t out) /\
  ((forall c, code_len (cst_set st) c < 256) ->
     exists ks, Forall2 (file_least toks encs) samples ks /\ cst_total st = sum ks).
Proof.
  intros order samples n ratio init st text toks encs Ho Hu Hn E Ht Hi Hr Ef (v & Ev & _ & Etoks & Eencs).
  destruct (run_made order samples n st Ho Hu Hn E) as (n_ext & tops & strs & M & Hlen & (pss & Hp & Htot)).
  destruct (file_value samples n_ext tops strs ratio init st M) as (text' & encs' & F1 & F2 & F3); try assumption; [rewrite Hlen; exact Hn|].
  assert (text' = text) by congruence. subst text'. rewrite F3 in Ev. injection Ev as <-.
  cbn in Etoks, Eencs. injection Etoks as <-. injection Eencs as <-.
  split; [intros t1 t2 out; apply (file_inj _ _ _ _ _ M encs' F2)|].
  split; [intros t Hut Hd; exact (file_can_write _ _ _ _ _ M encs' F2 t Hd Hut)|].
  intros Hlen256. exists (map (cost (cst_set st)) pss). split; [|exact Htot].
  assert (Hd : forall t, In t samples -> forall c, In c (chars t) -> In c (data_chars samples)).
  { intros t Hin c Hc. apply in_flat_map. eauto. }
  clear - Hp M F2 Hlen256 Hd.
  assert (G : forall l qs, Forall2 (best_pieces (cst_set st)) l qs -> (forall t, In t l -> In t samples) ->
    Forall2 (file_least (tokens_to_json (cst_set st)) encs') l (map (cost (cst_set st)) qs)).
  { induction 1 as [|t ps l qs Hb HF IH]; intros Hl; [constructor|]. cbn [map]. constructor; [|apply IH; intros x Hx; apply Hl; right; exact Hx].
    apply (best_least _ _ _ _ _ M encs' F2); [apply Hd, Hl; left; reflexivity|exact Hlen256|exact Hb]. }
  apply G; auto.
Qed.

(** A run whose file lists two codes (four tokens for a text with four characters)
    and one whose file lists a joined string. *)
Theorem C97_hypotheses_met :
  number_text (lit "2.0") /\ Forall utf8 [[x61; x62; x63; x64; x61; x62; x61; x62; x61; x62; x61; x62]] /\
  (exists st text, optimize_chars_tokens (fun _ l => l) [[x61; x62; x63; x64; x61; x62; x61; x62; x61; x62; x61; x62]] 4 = Ret st /\
     chars_file (fun _ _ => lit "2.0") 12 st = Ret text /\ cst_total st = 14 /\ (forall c, code_len (cst_set st) c < 256) /\
     file_says text [JNum 0; JNum 1; JStr [x61]; JStr [x62]]
       [([x63], JArr [JStr [x62]; JNum 0]); ([x64], JArr [JStr [x62]; JNum 1])]) /\
  (exists st text, optimize_chars_tokens (fun _ l => l) [[x61; x62; x63; x64; x61; x62; x61; x62; x61; x62; x61; x62]] 8 = Ret st /\
     chars_file (fun _ _ => lit "2.0") 12 st = Ret text /\ cst_total st = 5 /\
     file_says text [JNum 0; JNum 1; JStr [x61]; JStr [x62]; JStr [x63]; JStr [x64]; JStr [x61; x62]; JStr [x61; x62; x61; x62]] []).
Proof.
  split; [vm_compute; reflexivity|]. split; [repeat constructor; apply utf8_valid_spec; vm_compute; reflexivity|].
  split; eexists; eexists; (split; [vm_compute; reflexivity|]); (split; [vm_compute; reflexivity|]); (split; [reflexivity|]).
  - split.
    + intros c. unfold code_len, char_encoding. cbn [cst_set c_enc sget]. unfold sget. repeat (destruct (bstr_eqb c _); [cbn; lia|]). destruct (lo_char c); cbn; lia.
    + eexists. split; [vm_compute; reflexivity|]. split; [reflexivity|]. split; reflexivity.
  - eexists. split; [vm_compute; reflexivity|]. split; [reflexivity|]. split; reflexivity.
Qed.
